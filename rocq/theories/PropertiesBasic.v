(* Final statements for the leaf parts of the code: escaping, options, stacks,
   encodings, SAX dispatch, helium-lint and printable names.  Beside each
   theorem an Example shows a concrete case that meets its hypotheses. *)
From Verif Require Import Base Utf8 Utf8Proofs Escape XmlSpec EscapeProofs Bitset BitsetProofs
  Stack StackProofs Encoding EncodingProofs Sax2 Sax2Proofs Lint LintProofs Tables TablesProofs.

(* ---- C01: text has no raw markup ---- *)
Theorem C01_text_no_raw_markup : forall s nl, bytes_ok s ->
  no_raw_markup (fun c => c = 60 \/ c = 62) (escapeText s nl).
Proof. exact escapeText_no_raw_markup. Qed.
Example C01_ex : bytes_ok (s_ "a<b>&c" ++ [255; 1]) /\
  escapeText (s_ "a<b>&c" ++ [255; 1]) false = s_ "a&lt;b&gt;&amp;c" ++ [239; 191; 189] ++ s_ "&#x1;".
Proof. split; [vm_compute; repeat constructor; discriminate|vm_compute; reflexivity]. Qed.

(* ---- C02: text survives ---- *)
(* [shown r] is r when XML allows it and U+FFFD otherwise; [runes_of] decodes
   UTF-8, one U+FFFD per invalid byte.  Missing: strings holding a C0 control
   character other than tab, LF, CR, for which the claim is false (next). *)
Theorem C02_text_survives_partial : forall s nl, bytes_ok s ->
  Forall (fun r => 32 <= r \/ r = 9 \/ r = 10 \/ r = 13) (runes_of s) ->
  read_text (runes_of (escapeText s nl)) = Some (map (fun r => if xml_char r then r else RuneError) (runes_of s)).
Proof. exact read_escapeText. Qed.
Example C02_ex : let s := s_ "x<&>" ++ [195; 169; 255; 13; 10] in
  read_text (runes_of (escapeText s false)) = Some [120; 60; 38; 62; 233; 65533; 13; 10].
Proof. vm_compute. reflexivity. Qed.

Theorem C02_text_survives_refuted : exists s nl, bytes_ok s /\
  read_text (runes_of (escapeText s nl)) <> Some (map (fun r => if xml_char r then r else RuneError) (runes_of s)).
Proof. exists [1], false. split; [repeat constructor; lia|vm_compute; discriminate]. Qed.

(* ---- C03: attribute values survive ---- *)
Theorem C03_attr_no_raw_markup : forall s, bytes_ok s ->
  no_raw_markup (fun c => c = 60 \/ c = 62 \/ c = 34 \/ c = 9 \/ c = 10 \/ c = 13) (escapeAttrValue s).
Proof. exact escapeAttr_no_raw_markup. Qed.
Theorem C03_attr_survives_partial : forall s, bytes_ok s ->
  Forall (fun r => 32 <= r \/ r = 9 \/ r = 10 \/ r = 13) (runes_of s) ->
  read_attr (runes_of (escapeAttrValue s)) = Some (map (fun r => if xml_char r then r else RuneError) (runes_of s)).
Proof. exact read_escapeAttr. Qed.
Example C03_ex : let s := s_ "<a """ ++ [9; 10; 38] in
  escapeAttrValue s = s_ "&lt;a &#34;&#9;&#10;&amp;" /\
  read_attr (runes_of (escapeAttrValue s)) = Some s.
Proof. vm_compute. split; reflexivity. Qed.
Theorem C03_attr_survives_refuted : exists s, bytes_ok s /\
  read_attr (runes_of (escapeAttrValue s)) <> Some (map (fun r => if xml_char r then r else RuneError) (runes_of s)).
Proof. exists [8]. split; [repeat constructor; lia|vm_compute; discriminate]. Qed.

(* ---- C04: quoted literals ---- *)
(* identifiers: everything except strings that hold both kinds of quote *)
Theorem C04_quoted_literal_partial : forall s, ~ (In 34 s /\ In 39 s) ->
  exists q, (q = 34 \/ q = 39) /\ ~ In q s /\ dumpQuotedString s = [q] ++ s ++ [q].
Proof. exact quoted_ok. Qed.
(* original entity text: additionally free of '&' (a literal &quot; in it
   cannot be told from an escaped quote) *)
Theorem C04_entity_literal_partial : forall s, ~ In 38 s -> (In 37 s \/ ~ (In 34 s /\ In 39 s)) ->
  exists q body, (q = 34 \/ q = 39) /\ ~ In q body /\
    dumpEntityContent s = [q] ++ body ++ [q] /\ literal_body body s.
Proof. exact entity_content_reads. Qed.
Example C04_ex : dumpQuotedString (s_ "a""b") = [39] ++ s_ "a""b" ++ [39] /\
  dumpEntityContent (s_ "50%'""") = s_ """50&#x25;'&quot;""".
Proof. vm_compute. split; reflexivity. Qed.
(* with both quotes present the double quotes are dropped: two different
   identifiers are written alike *)
Theorem C04_quoted_literal_refuted : exists s t, s <> t /\ dumpQuotedString s = dumpQuotedString t.
Proof. exists (s_ "a""'b"), (s_ "a'b"). split; [discriminate|vm_compute; reflexivity]. Qed.

(* ---- C05: options ---- *)
Theorem C05_plain_options_partial : forall p a b, In a plain_options -> In b plain_options ->
  opt_isset (opt_set p a) b = if a =? b then true else opt_isset p b.
Proof. exact plain_independent. Qed.
Example C05_ex : In ParseNoEnt plain_options /\ In ParseBigLines plain_options /\
  opt_isset (opt_set 5 ParseNoEnt) ParseBigLines = false.
Proof. vm_compute. tauto. Qed.
Theorem C05_options_refuted : exists a b, In a parse_options /\ In b parse_options /\ a <> b /\
  opt_isset 0 b = false /\ opt_isset (opt_set 0 a) b = true.
Proof. exact options_overlap_refuted. Qed.
Theorem C05_load_options_refuted : exists a b, In a load_options /\ In b load_options /\ a <> b /\
  opt_isset 0 b = false /\ opt_isset (opt_set 0 a) b = true.
Proof. exact load_overlap_refuted. Qed.

(* ---- C06: stacks ---- *)
(* [spec_op] is push/pop on plain lists; any growth policy of append *)
Theorem C06_stack_lifo : forall (A : Type) (zero : A) (grow : nat -> nat) (ops : list (op A)),
  let st := fold_left (run_op A zero grow) ops (empty_stack A) in
  elems (fst st) (snd st) = fold_left (spec_op A) ops [].
Proof. exact stack_refines. Qed.
Theorem C06_peek : forall (A : Type) (zero : A) (grow : nat -> nat) (ops : list (op A)) n, 0 <= n ->
  let st := fold_left (run_op A zero grow) ops (empty_stack A) in
  exists p, peek (snd st) n = Ret p /\
    elems (fst st) p = last_n A (Z.to_nat n) (fold_left (spec_op A) ops []).
Proof. exact peek_ok. Qed.
Example C06_ex : let ops := map OPush (map Z.of_nat (seq 0 60)) ++ [OPop 45; OPush 7; OPop 2] in
  fold_left (spec_op Z) ops [] = map Z.of_nat (seq 0 14) /\
  let st := fold_left (run_op Z 0 (fun n => n)) ops (empty_stack Z) in
  elems (fst st) (snd st) = map Z.of_nat (seq 0 14) /\ arr (snd st) <> 0%nat.
Proof. vm_compute. repeat split; discriminate. Qed.
(* the result of Peek is only good until the next operation *)
Theorem C06_peek_alias_refuted : exists (ops : list (op Z)) p,
  let st := fold_left (run_op Z 0 (fun n => n)) ops (empty_stack Z) in
  peek (snd st) 1 = Ret p /\ elems (fst st) p = [2] /\
  let st' := fold_left (run_op Z 0 (fun n => n)) [OPop 1; OPush 3] st in elems (fst st') p = [3].
Proof. exact peek_alias_refuted. Qed.

(* ---- C07: unique stack ---- *)
Theorem C07_unique_stack : forall (A : Type) (zero : A) (grow : nat -> nat) (key : A -> str) (ops : list (op A)),
  let st := fold_left (urun_op A zero grow key) ops (empty_stack A) in
  let l := fold_left (uspec_op A key) ops [] in
  elems (fst st) (snd st) = l /\ NoDup (map key l) /\
  (forall x, In x l -> ulookup A key (fst st) (snd st) (key x) = Some x) /\
  (forall k, ~ In k (map key l) -> ulookup A key (fst st) (snd st) k = None) /\
  (forall x, In (key x) (map key l) ->
     upush A zero grow key (fst st) (snd st) x = ((fst st, snd st), true)) /\
  (forall x, ~ In (key x) (map key l) ->
     let '(st', dup) := upush A zero grow key (fst st) (snd st) x in
     dup = false /\ elems (fst st') (snd st') = l ++ [x]).
Proof. exact ustack_invariant. Qed.
Example C07_ex : let ops := [OPush (s_ "a", s_ "1"); OPush (s_ "b", s_ "2"); OPush (s_ "a", s_ "3")] in
  fold_left (uspec_op _ fst) ops [] = [(s_ "a", s_ "1"); (s_ "b", s_ "2")].
Proof. vm_compute. reflexivity. Qed.

(* ---- C12: encoding detection ---- *)
Theorem C12_detect_sound : forall s enc r, detectEncoding s = Some (enc, r) ->
  exists g, In g signatures /\ starts_with s g /\ enc = s_ (sig_name g) /\
    (sig_bom g = true -> s = sig_bytes g ++ r).
Proof. exact detect_sound. Qed.
Theorem C12_detect_complete : forall s g, In g signatures -> starts_with s g ->
  exists r, detectEncoding s = Some (s_ (sig_name g), r).
Proof. exact detect_complete. Qed.
Theorem C12_signature_unambiguous : forall s g h, In g signatures -> In h signatures ->
  starts_with s g -> starts_with s h -> g = h.
Proof. exact signature_unique. Qed.
Example C12_ex : detectEncoding ([239; 187; 191] ++ s_ "<a/>") = Some (s_ "utf8", s_ "<a/>") /\
  detectEncoding (s_ "<?xml ?><a/>") = Some (s_ "utf8", s_ "<?xml ?><a/>") /\
  detectEncoding (s_ "<a/>") = None /\ detectEncoding [254] = None.
Proof. vm_compute. repeat split; reflexivity. Qed.
(* the four-byte signatures are the document's own first characters, and they
   are swallowed *)
Theorem C12_eats_document_refuted : exists s g r, In g signatures /\ sig_bom g = false /\ starts_with s g /\
  detectEncoding s = Some (s_ (sig_name g), r) /\ r <> s.
Proof. exact detect_eats_document_refuted. Qed.

(* ---- C13: encoding.Load ---- *)
Theorem C13_listed : forall lower name p,
  (forall c, 0 <= c < 128 -> lower c = lower_ascii c) -> In p documented ->
  Forall (fun c => 0 <= c < 128) name -> map lower_ascii name = s_ (fst p) ->
  Load lower name = Some (snd p).
Proof. exact Load_listed. Qed.
Theorem C13_unlisted : forall lower name,
  (forall p, In p documented -> ToLower lower name <> s_ (fst p)) -> Load lower name = None.
Proof. exact Load_unlisted. Qed.
Theorem C13_case : forall lower a b, ToLower lower a = ToLower lower b -> Load lower a = Load lower b.
Proof. exact Load_case. Qed.
Theorem C13_ascii_case : forall lower a b,
  (forall c, 0 <= c < 128 -> lower c = lower_ascii c) ->
  Forall (fun c => 0 <= c < 128) a -> Forall (fun c => 0 <= c < 128) b ->
  map lower_ascii a = map lower_ascii b -> Load lower a = Load lower b.
Proof. exact Load_ascii_case. Qed.
Example C13_ex : Load lower_ascii (s_ "Shift_JIS") = Some E_ShiftJIS /\ Load lower_ascii (s_ "utf16le") = None
  /\ Load lower_ascii (s_ "KOI8-R") = None.
Proof. vm_compute. repeat split; reflexivity. Qed.

(* ---- C14: SAX2 dispatch ---- *)
Theorem C14_dispatch_partial : forall (V error W : Type) (unspecified : error) (s : SAX2 V error W) k w ctx args r,
  k <> KError ->
  invoke V error unspecified W s k w ctx args = Some r ->
  r = match installed V error W s k with
      | Some h => h w ctx args
      | None => (w, RZero V error (zero_of k) unspecified)
      end.
Proof. exact dispatch_exact. Qed.
Theorem C14_every_method_callable : forall (V error W : Type) (unspecified : error) k,
  exists n, forall (s : SAX2 V error W) w ctx (args : list (value V)),
  List.length args = n -> invoke V error unspecified W s k w ctx args <> None.
Proof. exact invoke_total. Qed.
Theorem C14_error_args_refuted : exists (s : SAX2 Z Z (list (list (value Z)))) h msg args,
  installed _ _ _ s KError = Some h /\
  invoke Z Z 0 _ s KError [] (VAtom Z 0) (msg :: args) <> Some (h [] (VAtom Z 0) (msg :: args)).
Proof. exact error_args_refuted. Qed.

(* ---- C49: helium-lint ---- *)
Theorem C49_runs_finite_partial : forall fs n s, steps n (init fs) s -> (n <= 4 * List.length fs + 3)%nat.
Proof. exact lint_runs_finite. Qed.
Theorem C49_outcome_partial : forall fs n s, steps n (init fs) s -> stuck s ->
  out s = good_prefix fs /\
  mn s = match first_failure fs with
         | NoFailure => MExit 0 | ParseFailure => MExit 1 | OpenFailure => MRecv
         end /\
  (first_failure fs = OpenFailure -> rd s = RErr).
Proof. exact lint_final. Qed.
Theorem C49_complete_run_exists : forall s, exists n s', steps n s s' /\ stuck s'.
Proof. exact run_completes. Qed.
Example C49_ex : let ok := {| opens := true; parses := true |} in
  good_prefix [ok; ok; {| opens := true; parses := false |}; ok] = [ok; ok] /\
  first_failure [ok; ok; {| opens := true; parses := false |}; ok] = ParseFailure.
Proof. vm_compute. split; reflexivity. Qed.
(* a file that cannot be opened leaves both goroutines blocked for ever *)
Theorem C49_deadlock_refuted : exists fs n s, steps n (init fs) s /\ stuck s /\ (forall c, mn s <> MExit c).
Proof. exact lint_deadlock_refuted. Qed.

(* ---- C54: printable names ---- *)
Theorem C54_named : forall i s, In (i, s) ElementType_consts -> ElementType_String i = Ret (s_ s).
Proof. exact ElementType_named. Qed.
Theorem C54_distinct : forall i j s, 1 <= i <= 21 ->
  ElementType_String i = Ret s -> ElementType_String j = Ret s -> i = j.
Proof. exact ElementType_inj. Qed.
Theorem C54_other : forall i, ~ (1 <= i <= 21) ->
  ElementType_String i = Ret (s_ "ElementType(" ++ fmt_d i ++ s_ ")").
Proof. exact ElementType_other. Qed.
Theorem C54_never_fails : forall i, exists s, ElementType_String i = Ret s.
Proof. exact ElementType_never_fails. Qed.
Theorem C54_parser_state_named : forall i s, In (i, s) parserState_consts -> parserState_String i = Ret (s_ s).
Proof. exact parserState_named. Qed.
Theorem C54_parser_state_other : forall i, ~ (-1 <= i <= 16) ->
  parserState_String i = Ret (s_ "parserState(" ++ fmt_d i ++ s_ ")").
Proof. exact parserState_other. Qed.
Example C54_ex : ElementType_String 8 = Ret (s_ "CommentNode") /\ ElementType_String 22 = Ret (s_ "ElementType(22)")
  /\ ElementType_String (-3) = Ret (s_ "ElementType(-3)").
Proof. vm_compute. repeat split; reflexivity. Qed.

Print Assumptions C01_text_no_raw_markup.
Print Assumptions C02_text_survives_partial.
Print Assumptions C02_text_survives_refuted.
Print Assumptions C03_attr_no_raw_markup.
Print Assumptions C03_attr_survives_partial.
Print Assumptions C03_attr_survives_refuted.
Print Assumptions C04_quoted_literal_partial.
Print Assumptions C04_entity_literal_partial.
Print Assumptions C04_quoted_literal_refuted.
Print Assumptions C05_plain_options_partial.
Print Assumptions C05_options_refuted.
Print Assumptions C05_load_options_refuted.
Print Assumptions C06_stack_lifo.
Print Assumptions C06_peek.
Print Assumptions C06_peek_alias_refuted.
Print Assumptions C07_unique_stack.
Print Assumptions C12_detect_sound.
Print Assumptions C12_detect_complete.
Print Assumptions C12_signature_unambiguous.
Print Assumptions C12_eats_document_refuted.
Print Assumptions C13_listed.
Print Assumptions C13_unlisted.
Print Assumptions C13_case.
Print Assumptions C13_ascii_case.
Print Assumptions C14_dispatch_partial.
Print Assumptions C14_every_method_callable.
Print Assumptions C14_error_args_refuted.
Print Assumptions C49_runs_finite_partial.
Print Assumptions C49_outcome_partial.
Print Assumptions C49_complete_run_exists.
Print Assumptions C49_deadlock_refuted.
Print Assumptions C54_named.
Print Assumptions C54_distinct.
Print Assumptions C54_other.
Print Assumptions C54_never_fails.
Print Assumptions C54_parser_state_named.
Print Assumptions C54_parser_state_other.
