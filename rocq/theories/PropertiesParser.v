(* Final statements about the parser.  Environments E and handlers H are
   arbitrary: [env_ok E] is what is assumed of Go's cursor, unicode and strings
   packages (Scan.v); [accepts S H] says that the handler's event callbacks
   return nil or ErrHandlerUnspecified.  Fuel n is any bound larger than the
   input where a result is claimed.  Refutations give an input on which the
   parser misbehaves for both values a cursor may return at the end of input. *)
From Verif Require Import Base Utf8 Utf8Proofs XmlSpec Encoding Scan ScanProofs Parser Effects DocEffects Sim LexProofs Grammar
  TextProofs Complete DocComplete Wrapped Term NoPanic Legal Sample Reject Local Counter ParserEx.
Local Open Scope Z_scope.

Definition refused (eof : Z) (x : str) : Prop := exists e, fst (run eof x) = Fail e.
Definition panics (eof : Z) (x : str) : Prop := fst (run eof x) = Pan.
Ltac wit := let e := fresh in intros e [->| ->]; vm_compute; repeat split; try reflexivity; try (eexists; reflexivity).

(* ---- C08: numeric character references ---- *)
(* [refNumber hex b = Some (v, rest)]: b is a non-empty string of digits
   denoting v, then ';', then rest.  Missing: v >= 2^31, where it is false. *)
Theorem C08_content_exact_partial : forall E, env_ok E -> forall S (H : handler S), accepts S H ->
  forall s K hex b v rest, inp s = refPrefix hex ++ b -> refNumber hex b = Some (v, rest) -> 0 <= v < 2147483648 ->
  if legal v then delivers (parseReference E S H K) s rest [ECharacters (utf8 [v])]
  else exists e, fst (parseReference E S H K s) = Fail e.
Proof. intros E OK S H HA. exact (charref_delivered E S H HA). Qed.
Theorem C08_illegal_refused_partial : forall E, env_ok E -> forall S (H : handler S), accepts S H ->
  forall src name d evs hex b v x, place E src name d evs -> refNumber hex b = Some (v, x) -> 0 <= v < 2147483648 -> xml_char v = false ->
  valids (refPrefix hex ++ b) -> forall bom n h, bom_ok bom -> (List.length (src ++ refPrefix hex ++ b) < n)%nat ->
  exists e, fst (Parse E S H n h (bom ++ utf8 (src ++ refPrefix hex ++ b))) = Fail e.
Proof. intros E OK S H HA src name d evs hex b v x Hp Hn Hv Hx Hval. eapply place_refused; eauto. eapply bad_charref; eauto. Qed.
Theorem C08_malformed_refused_partial : forall E, env_ok E -> forall S (H : handler S), accepts S H ->
  forall src name d evs hex b, place E src name d evs -> (hex = false -> hd 0 b <> 120) -> In 59 b -> refNumber hex b = None ->
  valids (refPrefix hex ++ b) -> forall bom n h, bom_ok bom -> (List.length (src ++ refPrefix hex ++ b) < n)%nat ->
  exists e, fst (Parse E S H n h (bom ++ utf8 (src ++ refPrefix hex ++ b))) = Fail e.
Proof. intros E OK S H HA src name d evs hex b Hp Hh Hs Hn Hval. eapply place_refused; eauto. eapply bad_number; eauto. Qed.
(* in entity values no bound is needed *)
Theorem C08_entity_value_exact : forall hex l v rest, refNumber hex l = Some (v, rest) ->
  (legal v = true -> parseStringCharRef (refPrefix hex ++ l) = Ret (v, rest)) /\
  (legal v = false -> exists e, parseStringCharRef (refPrefix hex ++ l) = Fail e).
Proof.
  intros hex l v rest Hn. rewrite (stringCharRef_value _ _ _ _ Hn), legal_is. split; intros ->; [reflexivity|].
  destruct (v <=? 1114111); eexists; reflexivity.
Qed.
Theorem C08_wraps_refuted : exists src v, refNumber false src = Some (v, s_ "</r>") /\ v = 4294967361 /\
  forall eof, eof_ok eof -> accepted eof (s_ "<r>&#" ++ src) /\ In (ECharacters [65]) (events eof (s_ "<r>&#" ++ src)).
Proof.
  exists (s_ "4294967361;</r>"), 4294967361. split; [reflexivity|]. split; [reflexivity|].
  intros eof [->| ->]; vm_compute; split; auto.
Qed.
Example C08_ex : refNumber true (s_ "e9;</b>") = Some (233, s_ "</b>") /\ legal 233 = true /\
  refNumber false (s_ "1;") = Some (1, []) /\ xml_char 1 = false /\ refNumber false (s_ "1a;") = None /\
  place (env0 0 false) (s_ "<a x='1'>hi<b>") (s_ "b") [] [].
Proof. repeat (split; [reflexivity|]). apply ex_place. Qed.

(* ---- C09: only legal characters are delivered ---- *)
(* Missing: CDATA sections (refuted below) and entities that the handler
   itself invents as predefined or nameless (plain_ent). *)
Theorem C09_legal_partial : forall E, env_ok E -> (forall c, isLetter E c || isDigit E c = true -> xml_char c = true) ->
  forall S (H : handler S),
  (forall h v n e b, snd (h_getEntity H h v n) = Answer (Some (Real e)) b -> plain_ent e) ->
  (forall h n e, h_docEntity H h n = Some (Some e) -> plain_ent e) ->
  forall n h bytes e r, In (e, r) (tr (snd (Parse E S H n h bytes))) -> legal_event e.
Proof. intros E OK NC S H. exact (Parse_legal E S H OK NC). Qed.
Theorem C09_illegal_refused_partial : forall E, env_ok E -> forall S (H : handler S), accepts S H ->
  forall src name d evs t c x, place E src name d evs -> t = [] \/ text_run t -> fresh evs -> hd c t <> 47 -> hd c t <> 62 -> legal c = false ->
  valids (t ++ c :: x) -> forall bom n h, bom_ok bom -> (List.length (src ++ t ++ c :: x) < n)%nat ->
  exists e, fst (Parse E S H n h (bom ++ utf8 (src ++ t ++ c :: x))) = Fail e.
Proof. intros E OK S H HA src name d evs t c x Hp Ht Hf H1 H2 Hc Hv. eapply place_refused; eauto. eapply bad_char; eauto. Qed.
Theorem C09_cdata_refuted : exists x, forall eof, eof_ok eof -> accepted eof x /\ In (ECDataBlock [1]) (events eof x).
Proof. exists (s_ "<r><![CDATA[" ++ [1] ++ s_ "]]></r>"). intros eof [->| ->]; vm_compute; auto 8. Qed.
Example C09_ex : (forall c, isLetter (env0 0 false) c || isDigit (env0 0 false) c = true -> xml_char c = true) /\
  legal_event (ECharacters (s_ "a" ++ [195; 169])) /\ ~ legal_event (EComment [1]).
Proof.
  split; [|split].
  - intros c Hc. cbn [isLetter isDigit env0] in Hc. unfold sampleLetter in Hc. unfold xml_char. lia.
  - cbn [legal_event]. unfold legal_str. apply by_forallb; reflexivity.
  - cbn [legal_event]. unfold legal_str. change (runes_of [1]) with [1]. intros Hx. apply Forall_inv in Hx. discriminate.
Qed.

(* ---- C10: attribute values ---- *)
Theorem C10_value_partial : forall E, env_ok E -> forall S (H : handler S),
  forall s n nm p l e1 e2 q lit v rest,
  inp s = qname p l ++ e1 ++ [61] ++ e2 ++ [q] ++ lit ++ [q] ++ rest ->
  qnamed E p l -> blanks e1 -> blanks e2 -> q = 34 \/ q = 39 -> attlit q lit v -> attsSpecial s = [] -> (List.length lit < n)%nat ->
  exists s', parseAttribute E S H n nm s = (Ret (utf8 l, utf8 p, v), s') /\ inp s' = rest /\ tr s' = tr s.
Proof. exact attribute_value. Qed.
(* XML reads CR LF as one line break, hence one space; the parser gives two *)
Theorem C10_crlf_refuted : exists lit, lit = s_ "x" ++ [13; 10] ++ s_ "y" /\ forall eof, eof_ok eof ->
  body eof (s_ "<r a='" ++ lit ++ s_ "'/>") =
    [EStartElement (s_ "r") [] [] [] [AAttr (s_ "a") [] (s_ "x  y")]; EEndElement (s_ "r") [] []].
Proof. eexists. split; [reflexivity|]. wit. Qed.
Example C10_ex : attlit 39 (s_ "a" ++ [9] ++ s_ "&#65;&amp;") (s_ "a A&#38;").
Proof.
  refine (al_char 39 97 _ (s_ " A&#38;") _ _ _ _ _ _); try reflexivity; try discriminate.
  refine (al_blank 39 9 _ (s_ "A&#38;") _ _ _); [reflexivity|discriminate|].
  refine (al_ref 39 (s_ "#65;&amp;") 65 (s_ "&amp;") (s_ "&#38;") _ _ _ _); [reflexivity|discriminate|discriminate|].
  refine (al_amp 39 (s_ "amp;") [] [] _ _); [reflexivity|constructor].
Qed.

(* ---- C11: tokenised attribute values ---- *)
(* Missing: values of spaces only, for which the parser panics. *)
Theorem C11_tokens_partial : forall s, s = [] \/ words s <> [] ->
  attrNormalizeSpace s = Ret (join (words s)) /\ attrNormalizeSpace (join (words s)) = Ret (join (words s)).
Proof.
  intros s [->|Hs]; [split; reflexivity|]. split; [apply norm_words; auto|]. assert (Hw : words (join (words s)) = words s) by (apply words_join, words_ok; intros []).
  rewrite norm_words; rewrite Hw; auto.
Qed.
Theorem C11_blank_panics_refuted : forall s, s <> [] -> words s = [] -> attrNormalizeSpace s = Pan.
Proof. exact norm_blank. Qed.
Theorem C11_document_panics_refuted : exists x, forall eof, eof_ok eof -> panics eof x.
Proof. exists (s_ "<!DOCTYPE r [<!ATTLIST r a NMTOKEN #IMPLIED>]><r a='&#32;'/>"). wit. Qed.
Example C11_ex : words (s_ "  a  bc ") = [s_ "a"; s_ "bc"] /\ attrNormalizeSpace (s_ "  a  bc ") = Ret (s_ "a bc").
Proof. split; reflexivity. Qed.

(* ---- C15, C16, C17: the shape of the event sequence, any handler ---- *)
Theorem C15_nested : forall E S (H : handler S) n h bytes,
  (fst (Parse E S H n h bytes) = Ret tt -> matched (filter is_tag (trace E S H n h bytes))) /\
  (forall pre post, trace E S H n h bytes = pre ++ post -> (ends pre <= starts pre)%nat).
Proof. intros. split; [apply success_matched|apply prefix_balanced]. Qed.
Theorem C16_order : forall E S (H : handler S) n h bytes,
  fst (Parse E S H n h bytes) = Ret tt -> document_shape (trace E S H n h bytes).
Proof. exact success_shape. Qed.
Example C15_ex : forall eof, eof_ok eof -> fst (Parse (env0 eof false) _ plainH 300 tt ex_src) = Ret tt /\
  filter is_tag (trace (env0 eof false) _ plainH 300 tt ex_src) =
  [EStartElement (s_ "a") [] [] [] [AAttr (s_ "x") [] (s_ "1")];
   EStartElement (s_ "b") (s_ "p") (s_ "u") [Some (s_ "p", s_ "u")] []; EEndElement (s_ "b") (s_ "p") (s_ "u");
   EEndElement (s_ "a") [] []].
Proof. intros eof [->| ->]; vm_compute; split; reflexivity. Qed.

(* C17: one root event sequence in every accepted run (document_shape above);
   inputs without root, with more than one, or cut off in the root are refused *)
Theorem C17_one_root_partial : forall E S (H : handler S) n h bytes, fst (Parse E S H n h bytes) = Ret tt ->
  exists before root after, trace E S H n h bytes = before ++ root ++ after /\ root_shape root /\
    forallb (fun e => negb (is_tag e)) (before ++ after) = true.
Proof.
  intros E S H n h bytes Hr. apply success_shape in Hr. destruct Hr as [m1 sub m2 root m3 H1 H2 H3 H4 H5].
  assert (Hm : forall m, forallb isMisc m = true -> forallb (fun e => negb (is_tag e)) m = true).
  { intros m Hm. rewrite forallb_forall in *. intros x Hx. apply Hm in Hx. destruct x; auto. }
  assert (Hs : forallb (fun e => negb (is_tag e)) sub = true).
  { destruct H2 as [|? ? ? decls ? ? ? Hd]; [reflexivity|]. cbn [forallb is_tag negb andb]. rewrite forallb_app. cbn.
    rewrite andb_true_r. rewrite forallb_forall in *. intros x Hx. apply Hd in Hx. destruct x; auto; discriminate. }
  exists ([ESetDocumentLocator; EStartDocument] ++ m1 ++ sub ++ m2), root, (m3 ++ [EEndDocument]).
  split; [rewrite <- !app_assoc; reflexivity|]. split; [auto|]. rewrite !forallb_app. rewrite (Hm m1), (Hm m2), (Hm m3), Hs; auto.
Qed.
Theorem C17_no_root_refused : forall E, env_ok E -> forall S (H : handler S), accepts S H ->
  forall b body, before_root E b -> startable body -> first_ok E b body -> hd 0 body <> 60 -> valids body ->
  forall bom n h, bom_ok bom -> (List.length (b ++ body) < n)%nat ->
  exists e, fst (Parse E S H n h (bom ++ utf8 (b ++ body))) = Fail e.
Proof. exact no_root_refused. Qed.
Theorem C17_second_root_refused : forall E, env_ok E -> forall S (H : handler S), accepts S H ->
  forall b x evs d m e r, before_root E b -> element E [] x evs d -> declared_once evs d -> misc E m e ->
  nomisc r -> r <> [] -> valids r ->
  forall bom n h, bom_ok bom -> (List.length (b ++ x ++ m ++ r) < n)%nat ->
  exists e, fst (Parse E S H n h (bom ++ utf8 (b ++ x ++ m ++ r))) = Fail e.
Proof. exact second_root_refused. Qed.
Theorem C17_cut_refused : forall E, env_ok E -> forall S (H : handler S), accepts S H ->
  forall src name d evs, place E src name d evs -> forall bom n h, bom_ok bom -> (List.length src < n)%nat ->
  exists e, fst (Parse E S H n h (bom ++ utf8 src)) = Fail e.
Proof.
  intros E OK S H HA src name d evs Hp bom n h Hb Hn. rewrite <- (app_nil_r src) in *.
  eapply place_refused; eauto; [rewrite app_nil_r in Hp; exact Hp|apply bad_eof|constructor].
Qed.
(* what follows the root is not always comments, instructions and blanks: an
   unterminated comment is taken for an empty one, an element may be left open *)
Theorem C17_junk_after_refuted : exists x, forall eof, eof_ok eof ->
  accepted eof x /\ body eof x = [EStartElement (s_ "r") [] [] [] []; EEndElement (s_ "r") [] []; EComment []].
Proof. exists (s_ "<r/><!--ab"). wit. Qed.
Theorem C17_open_root_refuted : exists x, forall eof, eof_ok eof -> accepted eof x /\ x = s_ "<r>/>".
Proof. exists (s_ "<r>/>"). wit. Qed.
Example C17_ex : forall eof, nomisc (s_ "<b/>") /\ element (env0 eof false) [] (s_ "<r/>")
    [EStartElement (s_ "r") [] [] [] []; EEndElement (s_ "r") [] []] [] /\ valids (s_ "<b/>") /\ before_root (env0 eof false) [].
Proof.
  intros eof. split; [repeat split; try reflexivity|]. split.
  - refine (e_empty (env0 eof false) [] [] (s_ "r") [] [] [] [] _ _ _).
    + split; [left; reflexivity|nc].
    + constructor. constructor.
    + split; reflexivity.
  - split; [unfold valids; apply by_forallb; reflexivity|]. apply br_plain with (e := []); [constructor|discriminate].
Qed.

(* ---- C18: mismatched end tags ---- *)
Theorem C18_mismatch_refused_partial : forall E, env_ok E -> forall S (H : handler S), accepts S H ->
  forall src name d evs x, place E src name d evs -> (forall y, x <> name ++ s_ ">" ++ y) -> valids (s_ "</" ++ x) ->
  forall bom n h, bom_ok bom -> (List.length (src ++ s_ "</" ++ x) < n)%nat ->
  exists e, fst (Parse E S H n h (bom ++ utf8 (src ++ s_ "</" ++ x))) = Fail e.
Proof. intros E OK S H HA src name d evs x Hp Hx Hv. eapply place_refused; eauto. apply bad_end; auto. Qed.
(* in any state whatever, an end tag is read only if it is that of the open
   element, or if it is "/>" *)
Theorem C18_end_tag_partial : forall E, env_ok E -> forall S (H : handler S) s s', parseEndTag E S H s = (Ret tt, s') ->
  exists top rest, nodeTab s = top :: rest /\
    (inp s = s_ "/>" ++ inp s' \/ inp s = s_ "</" ++ runes_of (nodeName top) ++ s_ ">" ++ inp s').
Proof. exact endtag_inv. Qed.
Theorem C18_missing_end_refuted : exists x, x = s_ "<r>/>" /\ forall eof, eof_ok eof -> accepted eof x.
Proof. exists (s_ "<r>/>"). split; [reflexivity|]. wit. Qed.
(* a well-formed end tag with white space is refused *)
Theorem C18_blank_end_refuted : exists x, x = s_ "<a></a >" /\ forall eof, eof_ok eof -> refused eof x.
Proof. exists (s_ "<a></a >"). split; [reflexivity|]. wit. Qed.
Example C18_ex : forall eof, place (env0 eof false) (s_ "<a x='1'>hi<b>") (s_ "b") [] [] /\ (forall y, s_ "a>" <> s_ "b" ++ s_ ">" ++ y).
Proof. intros eof. split; [apply ex_place|discriminate]. Qed.

(* ---- C19: a failing handler stops the parse ---- *)
(* the trace is kept newest first *)
Theorem C19_failure_stops : forall E S (H : handler S) n h bytes e k,
  In (e, HError k) (tr (snd (Parse E S H n h bytes))) ->
  fst (Parse E S H n h bytes) = Fail (PErr (HErr k)) /\
  exists before, tr (snd (Parse E S H n h bytes)) = (e, HError k) :: before /\
    forall e' r, In (e', r) before -> r = HNil \/ r = HUnspec.
Proof. exact failure_stops. Qed.
Theorem C19_unspecified_is_nil : forall E S1 S2 (R : S1 -> S2 -> Prop) (H1 : handler S1) (H2 : handler S2), hsim R H1 H2 ->
  forall n a b bytes, R a b ->
  fst (Parse E S1 H1 n a bytes) = fst (Parse E S2 H2 n b bytes) /\
  map fst (tr (snd (Parse E S1 H1 n a bytes))) = map fst (tr (snd (Parse E S2 H2 n b bytes))).
Proof. intros E S1 S2 R H1 H2 HS n a b bytes Hr. destruct (sim_Parse _ _ R E _ _ HS n a b bytes Hr) as (X & Y & _). auto. Qed.
(* a handler that fails at the second element; one that answers alternately *)
Definition failH : handler nat := {|
  h_event := fun s _ e => match e with EStartElement _ _ _ _ _ => (Datatypes.S s, if Nat.eqb s 1 then HError 7 else HNil) | _ => (s, HNil) end;
  h_getEntity := fun s _ _ => (s, Answer None true);
  h_getPEntity := fun s _ _ => (s, Answer None true); h_setOrig := fun s _ _ => s; h_mixed := fun _ _ => None;
  h_docEntity := fun _ _ => None; h_createAttr := fun s _ _ _ => (s, Ret tt); h_chunkEnter := fun s => s; h_chunkLeave := fun _ s => s |}.
Definition unspecH : handler unit := {|
  h_event := fun s _ _ => (s, HUnspec); h_getEntity := fun s _ _ => (s, Answer None true);
  h_getPEntity := fun s _ _ => (s, Answer None true); h_setOrig := fun s _ _ => s; h_mixed := fun _ _ => None;
  h_docEntity := fun _ _ => None; h_createAttr := fun s _ _ _ => (s, Ret tt);
  h_chunkEnter := fun s => s; h_chunkLeave := fun _ s => s |}.
Example C19_ex : In (EStartElement (s_ "b") [] [] [] [], HError 7) (tr (snd (Parse (env0 0 false) _ failH 50 0%nat (s_ "<a><b/><c/></a>")))) /\
  hsim (fun _ _ => True) plainH unspecH.
Proof. split; [vm_compute; auto|]. constructor; cbn; auto. Qed.

(* ---- C20: errors are wrapped exactly once ---- *)
Theorem C20_wrapped_once : forall E S (H : handler S) n h b e, fst (Parse E S H n h b) = Fail e ->
  exists e', e = PErr e' /\ (forall e'', e' <> PErr e'').
Proof. exact Parse_wrapped. Qed.
Theorem C20_wrap_idempotent : forall e, ctx_error (ctx_error e) = ctx_error e /\ exists e', ctx_error e = PErr e'.
Proof. intros []; split; try reflexivity; eexists; reflexivity. Qed.
Example C20_ex : fst (Parse (env0 0 false) _ plainH 50 tt (s_ "<a></b>")) = Fail (PErr (Plain "expected end tag")).
Proof. vm_compute. reflexivity. Qed.

(* ---- C21, C44: termination ---- *)
(* fuel linear in the input, with an allowance per level of entity nesting (at
   most 40).  Missing: document type declarations, unterminated CDATA sections
   and malformed local names (calm), on which the parser hangs, see below.
   [nice]: the entities the handler answers with have at most L characters and
   are calm; they may refer to each other and to themselves. *)
Theorem C21_terminates_partial : forall E, env_ok E -> (forall n l, l <> [] -> (List.length (over E n l) < List.length l)%nat) ->
  forall S (H : handler S) (good : S -> Prop) L,
  (forall h v e, good h -> good (fst (h_event H h v e))) ->
  (forall h v n, good h -> good (fst (h_getEntity H h v n)) /\
     forall e b, snd (h_getEntity H h v n) = Answer (Some (Real e)) b -> nice E L e) ->
  (forall h, good h -> good (h_chunkEnter H h)) -> (forall h h', good h -> good h' -> good (h_chunkLeave H h h')) ->
  forall bytes, (forall c rest, suffix rest bytes -> calm E (decode E c rest)) ->
  forall n h, good h -> (forall c rest, suffix rest bytes -> (List.length (decode E c rest) + (L + 2) * 41 < n)%nat) ->
  fst (Parse E S H n h bytes) <> Oof.
Proof. exact Parse_terminates. Qed.
Theorem C21_hangs_refuted : exists x, x = s_ "<a:1/>" /\ forall eof, eof_ok eof -> hangs eof x.
Proof. eexists. split; [reflexivity|]. exact hang_colon. Qed.
Theorem C21_subset_hangs_refuted : exists x, x = s_ "<!DOCTYPE r [x]><r/>" /\ forall eof, eof_ok eof -> hangs eof x.
Proof. eexists. split; [reflexivity|]. exact hang_junk. Qed.
Theorem C21_cdata_hangs_refuted : exists x, x = s_ "<r><![CDATA[ab" /\ hangs RuneError x.
Proof. eexists. split; [reflexivity|]. exact hang_cdata. Qed.
Lemma C21_loop : forall eof pct, eof_ok eof -> forall n, (400 < n)%nat -> fst (Parse (env0 eof pct) _ loopH n tt loop_src) <> Oof.
Proof.
  intros eof pct He n Hn.
  apply (C21_terminates_partial (env0 eof pct) (env0_ok eof pct He)) with (good := fun _ => True) (L := 7%nat); auto.
  - intros k l Hl. cbn. destruct l; [congruence|cbn; lia].
  - exact (loop_nice eof pct).
  - exact (loop_calm eof pct).
  - intros c rest Hs. cbn [decode env0]. rewrite (loop_ascii _ Hs). destruct Hs as (p & Hp).
    assert (List.length loop_src = List.length (p ++ rest)) by congruence. rewrite app_length in H.
    change (List.length loop_src) with 10%nat in H. lia.
Qed.
Example C21_ex : fst (Parse (env0 0 false) _ loopH 401 tt loop_src) <> Oof.
Proof. apply C21_loop; [left; reflexivity|lia]. Qed.

(* C44: the entity e of loopH stands for  <b/>&e; ; expansion ends in an error *)
Theorem C44_self_reference_partial : forall eof, eof_ok eof ->
  (forall n, (400 < n)%nat -> fst (Parse (env0 eof false) _ loopH n tt loop_src) <> Oof) /\
  exists e, fst (Parse (env0 eof false) _ loopH 401 tt loop_src) = Fail e.
Proof. intros eof He. split; [apply C21_loop; auto|]. destruct He as [->| ->]; vm_compute; eexists; reflexivity. Qed.
Theorem C44_expansion_terminates_partial : forall E, env_ok E -> (forall n l, l <> [] -> (List.length (over E n l) < List.length l)%nat) ->
  forall S (H : handler S) (good : S -> Prop) L,
  (forall h v e, good h -> good (fst (h_event H h v e))) ->
  (forall h v n, good h -> good (fst (h_getEntity H h v n)) /\
     forall e b, snd (h_getEntity H h v n) = Answer (Some (Real e)) b -> nice E L e) ->
  (forall h, good h -> good (h_chunkEnter H h)) -> (forall h h', good h -> good h' -> good (h_chunkLeave H h h')) ->
  forall bytes, (forall c rest, suffix rest bytes -> calm E (decode E c rest)) ->
  forall n h, good h -> (forall c rest, suffix rest bytes -> (List.length (decode E c rest) + (L + 2) * 41 < n)%nat) ->
  fst (Parse E S H n h bytes) <> Oof.
Proof. exact Parse_terminates. Qed.

(* ---- C22: no panic ---- *)
(* Missing: document type declarations, references to unknown entities and a
   stray '%' in an XML declaration, which do make the parser panic. *)
Theorem C22_no_panic_partial : forall E, env_ok E -> forall S (H : handler S) (good : S -> Prop) (G : str -> Prop),
  (forall h v e, good h -> good (fst (h_event H h v e)) /\ snd (h_event H h v e) <> HPanic) ->
  (forall h v n, good h -> G n -> good (fst (h_getEntity H h v n)) /\
     exists e, snd (h_getEntity H h v n) = Answer (Some (Real e)) false /\
       (e_type e = InternalGeneralEntity -> refs_ok E G (runes_of (e_content e)))) ->
  (forall h, good h -> good (h_chunkEnter H h)) -> (forall h h', good h -> good h' -> good (h_chunkLeave H h h')) ->
  forall bytes, (forall c rest, suffix rest bytes -> refs_ok E G (decode E c rest) /\ NoPanic.no_doctype (decode E c rest)) ->
  (forall a r, bytes = a ++ s_ "<?xml" ++ r -> late_percent bytes) ->
  forall n h, good h -> fst (Parse E S H n h bytes) <> Pan.
Proof. exact Parse_safe. Qed.
Theorem C22_unknown_entity_refuted : exists x, x = s_ "<r>&x;</r>" /\ forall eof, eof_ok eof -> panics eof x.
Proof. exists (s_ "<r>&x;</r>"). split; [reflexivity|]. wit. Qed.
Theorem C22_entity_value_refuted : exists x, x = s_ "<!DOCTYPE r [<!ENTITY e '&#'>]><r/>" /\ forall eof, eof_ok eof -> panics eof x.
Proof. exists (s_ "<!DOCTYPE r [<!ENTITY e '&#'>]><r/>"). split; [reflexivity|]. wit. Qed.
Theorem C22_default_value_refuted : exists x, x = s_ "<!DOCTYPE r [<!ATTLIST r a NMTOKEN ' '>]><r/>" /\ forall eof, eof_ok eof -> panics eof x.
Proof. exists (s_ "<!DOCTYPE r [<!ATTLIST r a NMTOKEN ' '>]><r/>"). split; [reflexivity|]. wit. Qed.
Example C22_ex : forall eof, eof_ok eof -> forall n, fst (Parse (env0 eof false) _ loopH n tt loop_src) <> Pan.
Proof.
  intros eof He n. apply (C22_no_panic_partial (env0 eof false) (env0_ok eof false He)) with (good := fun _ => True) (G := only_e); auto.
  - intros; split; [auto|discriminate].
  - exact (loop_entity eof false).
  - exact (loop_by eof false).
  - intros a r Hr. assert (Hi : In 63 loop_src) by (rewrite Hr; apply in_or_app; right; right; left; reflexivity).
    exfalso. revert Hi. notin.
Qed.

(* ---- C23: repeated attributes ---- *)
(* The parser itself lets them through (the tree builder refuses them later,
   see PropertiesTree.v). *)
Theorem C23_duplicate_refuted : exists x, x = s_ "<r a='1' a='2'/>" /\ forall eof, eof_ok eof -> accepted eof x /\
  body eof x = [EStartElement (s_ "r") [] [] [] [AAttr (s_ "a") [] (s_ "1"); AAttr (s_ "a") [] (s_ "2")]; EEndElement (s_ "r") [] []].
Proof. exists (s_ "<r a='1' a='2'/>"). split; [reflexivity|]. wit. Qed.

(* ---- C24: namespaces ---- *)
(* [scoped ns tab]: the parser's table holds every binding in scope and no
   other for the same prefix.  Missing: prefixes declared more than once. *)
Theorem C24_start_tag_partial : forall E, env_ok E -> forall S (H : handler S), accepts S H ->
  forall s n p l t a d u ns (e : bool) rest,
  inp s = s_ "<" ++ qname p l ++ t ++ (if e then s_ "/>" else s_ ">") ++ rest ->
  qnamed E p l -> atts E t a d -> scoped ns (nsTab s) -> NoDup (map fst (nsTab s ++ d)) ->
  resolves (rev d ++ ns) (utf8 p) u -> attsSpecial s = [] -> attsDefault s = [] -> (List.length t < n)%nat ->
  delivers (parseStartTag E S H n) s (if e then s_ "/>" ++ rest else rest)
    [EStartElement (utf8 l) (utf8 p) u (map Some d) a].
Proof. exact starttag_delivered. Qed.
Theorem C24_unbound_refused_partial : forall E, env_ok E -> forall S (H : handler S), accepts S H ->
  forall src name d evs p l t a d1 (e : bool) x, place E src name d evs -> ncname E p -> ncname E l -> atts E t a d1 ->
  NoDup (map fst (d ++ d1)) -> ~ In (utf8 p) (map fst (d ++ d1)) ->
  valids (s_ "<" ++ qname p l ++ t ++ (if e then s_ "/>" else s_ ">") ++ x) ->
  forall bom n h, bom_ok bom -> (List.length (src ++ s_ "<" ++ qname p l ++ t ++ (if e then s_ "/>" else s_ ">") ++ x) < n)%nat ->
  exists err, fst (Parse E S H n h (bom ++ utf8 (src ++ s_ "<" ++ qname p l ++ t ++ (if e then s_ "/>" else s_ ">") ++ x))) = Fail err.
Proof. intros E OK S H HA src name d evs p l t a d1 e x Hp. intros. eapply place_refused; eauto. eapply bad_prefix; eauto. Qed.
(* a declaration is seen by the following siblings *)
Theorem C24_leak_refuted : exists x, x = s_ "<r><a xmlns:p='u'/><p:b/></r>" /\ forall eof, eof_ok eof -> accepted eof x /\
  In (EStartElement (s_ "b") (s_ "p") (s_ "u") [] []) (events eof x).
Proof. eexists. split; [reflexivity|]. intros eof [->| ->]; vm_compute; split; [reflexivity|auto 10|reflexivity|auto 10]. Qed.
(* an inner declaration does not override an outer one *)
Theorem C24_override_refuted : exists x, x = s_ "<a xmlns:p='u'><b xmlns:p='v'/></a>" /\ forall eof, eof_ok eof -> refused eof x.
Proof. exists (s_ "<a xmlns:p='u'><b xmlns:p='v'/></a>"). split; [reflexivity|]. wit. Qed.
(* a default declaration followed by white space is also reported as attribute *)
Theorem C24_default_reported_refuted : exists x, x = s_ "<r xmlns='u' />" /\ forall eof, eof_ok eof ->
  exists sp atts, In (EStartElement (s_ "r") [] (s_ "u") sp atts) (events eof x) /\ In (AAttr (s_ "xmlns") [] (s_ "u")) atts.
Proof.
  eexists. split; [reflexivity|]. intros eof [->| ->]; vm_compute; do 2 eexists; (split; [right; right; left; reflexivity|left; reflexivity]).
Qed.
Example C24_ex : forall eof, atts (env0 eof false) (s_ " xmlns:p='u'") [] [(s_ "p", s_ "u")] /\
  scoped [] [] /\ resolves (rev [(s_ "p", s_ "u")] ++ []) (s_ "p") (s_ "u").
Proof.
  intros eof. split; [apply ex_ns|]. split; [|reflexivity]. split; [constructor|]. split; [intros p u []|]. split; [discriminate|intros []].
Qed.

(* ---- C25: comments ---- *)
Theorem C25_verbatim : forall E, env_ok E -> forall S (H : handler S), accepts S H ->
  forall s b b' rest, inp s = s_ "<!--" ++ b ++ s_ "-->" ++ rest -> comment_text b -> eol b b' ->
  delivers (parseComment E S H) s rest [EComment (utf8 b')].
Proof. intros E OK S H HA. exact (comment_delivered E S H HA). Qed.
(* conversely, what is read as a comment is one, provided it is terminated *)
Theorem C25_only_comments_partial : forall E, env_ok E -> forall l v l', legals l -> contains (s_ "-->") l ->
  scanComment E (s_ "<!--" ++ l) = (Ret v, l') ->
  exists b b', l = b ++ s_ "-->" ++ l' /\ comment_text b /\ eol b b' /\ v = utf8 b'.
Proof. intros E OK l v l' H1 H2 H3. destruct (comment_inv E l v l' OK H1 H2 H3) as (b & X & Y & Z1 & Z2). eauto 6. Qed.
Theorem C25_hyphens_refused : forall E, env_ok E -> forall S (H : handler S), accepts S H ->
  forall src name d evs b c x, place E src name d evs -> comment_text b -> legal c = true -> c <> 62 ->
  valids (s_ "<!--" ++ b ++ s_ "--" ++ c :: x) -> forall bom n h, bom_ok bom -> (List.length (src ++ s_ "<!--" ++ b ++ s_ "--" ++ c :: x) < n)%nat ->
  exists e, fst (Parse E S H n h (bom ++ utf8 (src ++ s_ "<!--" ++ b ++ s_ "--" ++ c :: x))) = Fail e.
Proof. intros E OK S H HA src name d evs b c x Hp. intros. eapply place_refused; eauto. eapply bad_comment; eauto. Qed.
Theorem C25_unterminated_refuted : exists x, x = s_ "<r/><!--ab" /\ forall eof, eof_ok eof -> accepted eof x /\ In (EComment []) (events eof x).
Proof. eexists. split; [reflexivity|]. intros eof [->| ->]; vm_compute; split; auto 8. Qed.
Example C25_ex : comment_text (s_ "a - b" ++ [13; 10]) /\ eol (s_ "a - b" ++ [13; 10]) (s_ "a - b" ++ [10]).
Proof.
  split; [split; [lit|split; [apply no_infix; reflexivity|right; discriminate]]|].
  do 5 (constructor; [discriminate|]). constructor. constructor.
Qed.

(* ---- C26: processing instructions ---- *)
Theorem C26_verbatim : forall E, env_ok E -> forall S (H : handler S), accepts S H ->
  forall s t b x rest, inp s = s_ "<?" ++ t ++ b ++ x ++ s_ "?>" ++ rest -> pitarget E t -> b <> [] -> blanks b -> pidata x ->
  delivers (parsePI E S H) s rest [EProcessingInstruction (utf8 t) (utf8 x)].
Proof. exact pi_delivered. Qed.
Theorem C26_verbatim_empty : forall E, env_ok E -> forall S (H : handler S), accepts S H ->
  forall s t rest, inp s = s_ "<?" ++ t ++ s_ "?>" ++ rest -> pitarget E t ->
  delivers (parsePI E S H) s rest [EProcessingInstruction (utf8 t) []].
Proof. exact pi0_delivered. Qed.
(* what is read as an instruction is one: terminated, its target not xml; one
   NUL after the target is skipped *)
Theorem C26_only_instructions_partial : forall E l t d l', env_ok E -> eofr E <> 0 -> scanPI E l = (Ret (t, d), l') ->
  exists n nul b data, l = s_ "<?" ++ n ++ nul ++ b ++ data ++ s_ "?>" ++ l' /\ t = utf8 n /\ d = utf8 data /\
    (nul = [] \/ nul = [0]) /\ Forall (fun c => isBlankCh c = true) b /\
    (b = [] -> data = []) /\ pi_data data /\ Forall (fun c => isChar c = true) data /\ t <> s_ "xml".
Proof. exact scanPI_inv. Qed.
Theorem C26_xml_refused_partial : forall E, env_ok E -> forall S (H : handler S), accepts S H ->
  forall src name d evs c x, place E src name d evs -> blank c = true \/ c = 63 ->
  valids (s_ "<?xml" ++ c :: x) -> forall bom n h, bom_ok bom -> (List.length (src ++ s_ "<?xml" ++ c :: x) < n)%nat ->
  exists e, fst (Parse E S H n h (bom ++ utf8 (src ++ s_ "<?xml" ++ c :: x))) = Fail e.
Proof. intros E OK S H HA src name d evs c x Hp. intros. eapply place_refused; eauto. eapply bad_xmlpi; eauto. Qed.
(* the reserved target in capitals is let through *)
Theorem C26_capital_xml_refuted : exists x, x = s_ "<?XML a?><r/>" /\ forall eof, eof_ok eof -> accepted eof x.
Proof. exists (s_ "<?XML a?><r/>"). split; [reflexivity|]. wit. Qed.
Example C26_ex : forall eof, pitarget (env0 eof false) (s_ "php") /\ pidata (s_ "echo 1? ") /\
  scanPI (env0 RuneError false) (s_ "<?php echo 1? ?>x") = (Ret (s_ "php", s_ "echo 1? "), s_ "x").
Proof. intros eof. split; [split; [nc|discriminate]|]. split; [|reflexivity]. split; [lit|split; [reflexivity|apply no_infix; reflexivity]]. Qed.

(* ---- C27: CDATA sections ---- *)
(* Missing: the empty section, and the tree (see PropertiesTree.v) *)
Theorem C27_verbatim_partial : forall E, env_ok E -> forall S (H : handler S), accepts S H ->
  forall s b b' rest, inp s = s_ "<![CDATA[" ++ b ++ s_ "]]>" ++ rest -> cdata_text b -> eol b b' ->
  delivers (parseCDSect E S H) s rest [ECDataBlock (utf8 b')].
Proof. intros E OK. exact (cdata_delivered E). Qed.
Theorem C27_empty_cdata_refuted : exists x, x = s_ "<r><![CDATA[]]></r>" /\ forall eof, eof_ok eof -> refused eof x.
Proof. exists (s_ "<r><![CDATA[]]></r>"). split; [reflexivity|]. wit. Qed.
Example C27_ex : cdata_text (s_ "<&]]") /\ eol (s_ "<&]]") (s_ "<&]]").
Proof. split; [split; [discriminate|split; [lit|apply no_infix; reflexivity]]|repeat constructor; discriminate]. Qed.

(* ---- C28: character data ---- *)
Theorem C28_delivered : forall E, env_ok E -> forall S (H : handler S), accepts S H ->
  forall s t t' rest, inp s = t ++ rest -> text_run t -> starts_markup rest -> eol t t' ->
  exists e, (e = ECharacters (utf8 t') \/ e = EIgnorableWhitespace (utf8 t')) /\ delivers (parseCharData E S H false) s rest [e].
Proof.
  intros E OK S H HA s t t' rest H1 H2 H3 H4. eexists. split; [|exact (chardata_delivered E OK S H HA s t t' rest H1 H2 H3 H4)]. destruct (_ && _); auto.
Qed.
(* conversely, whatever is read as character data is a run of it, delivered whole *)
Theorem C28_only_text : forall E, env_ok E -> forall l t l', scanCharData E false l = (Ret t, l') ->
  exists cs cs', l = cs ++ l' /\ text_run cs /\ eol cs cs' /\ t = utf8 cs' /\
    match l' with [] => True | c :: _ => c = 60 \/ c = 38 \/ legal c = false end.
Proof.
  intros E OK l t l' Hs. destruct (scanCharData_inv E l t l' Hs) as (cs & A1 & A2 & A3 & A4).
  exists cs, (crlf cs). split; [auto|]. split; [auto|]. split; [apply crlf_eol|auto].
Qed.
Theorem C28_cdend_refused : forall E, env_ok E -> forall S (H : handler S), accepts S H ->
  forall src name d evs t x, place E src name d evs -> t = [] \/ text_run t -> ~ contains (s_ "]]>") (t ++ s_ "]]") -> fresh evs ->
  hd 93 t <> 47 -> hd 93 t <> 62 -> valids (t ++ s_ "]]>" ++ x) ->
  forall bom n h, bom_ok bom -> (List.length (src ++ t ++ s_ "]]>" ++ x) < n)%nat ->
  exists e, fst (Parse E S H n h (bom ++ utf8 (src ++ t ++ s_ "]]>" ++ x))) = Fail e.
Proof. intros E OK S H HA src name d evs t x Hp. intros. eapply place_refused; eauto. eapply bad_cdend; eauto. Qed.
(* text that starts with "/>" is taken for the end of the element *)
Theorem C28_slash_gt_refuted : exists x, x = s_ "<r>/></r>" /\ forall eof, eof_ok eof -> refused eof x.
Proof. exists (s_ "<r>/></r>"). split; [reflexivity|]. wit. Qed.
Example C28_ex : text_run (s_ "a]]b" ++ [13; 10; 13]) /\ eol (s_ "a]]b" ++ [13; 10; 13]) (s_ "a]]b" ++ [10; 13]).
Proof.
  split.
  - split; [discriminate|]. split; [lit|]. split; [notin|]. split; [notin|]. apply no_infix; reflexivity.
  - do 4 (constructor; [discriminate|]). constructor. constructor; [discriminate|constructor].
Qed.

(* ---- C29: the XML declaration ---- *)
Theorem C29_fields_partial : forall E, env_ok E -> forall h v enc sa r, xml_decl h v enc sa ->
  parseXMLDecl E (h ++ r) = (Ret {| xd_version := v; xd_encoding := match enc with Some n => n | None => [] end;
    xd_standalone := match sa with None => StandaloneImplicitNo | Some true => StandaloneExplicitYes | Some false => StandaloneExplicitNo end |}, r).
Proof. intros E OK. exact (xmldecl_ok E). Qed.
Theorem C29_trailing_blank_refuted : exists x, x = s_ "<?xml version='1.0' ?><r/>" /\ forall eof, eof_ok eof -> refused eof x.
Proof. exists (s_ "<?xml version='1.0' ?><r/>"). split; [reflexivity|]. wit. Qed.
Theorem C29_stylesheet_refuted : exists x, x = s_ "<?xml-stylesheet a?><r/>" /\ forall eof, eof_ok eof -> refused eof x.
Proof. exists (s_ "<?xml-stylesheet a?><r/>"). split; [reflexivity|]. wit. Qed.
Theorem C29_malformed_accepted_refuted : exists x, x = s_ "<?xml version='1.0' encoding standalone='yes'?><r/>" /\
  forall eof, eof_ok eof -> accepted eof x.
Proof. exists (s_ "<?xml version='1.0' encoding standalone='yes'?><r/>"). split; [reflexivity|]. wit. Qed.
Example C29_ex : xml_decl (s_ "<?xml version='1.0' standalone='no'?>") (s_ "1.0") None (Some false).
Proof.
  refine (xd (s_ "1.0") (s_ " version='1.0'") None [] (Some false) (s_ " standalone='no'") _ _ _ _).
  - exists 49, 48, []. repeat split; constructor.
  - refine (ps "version" _ (s_ " ") [] [] 39 _ _ _ _ _); [discriminate|lit|lit|lit|auto].
  - reflexivity.
  - refine (ps "standalone" _ (s_ " ") [] [] 39 _ _ _ _ _); [discriminate|lit|lit|lit|auto].
Qed.

(* ---- C50: names ---- *)
(* One NUL after a name is consumed with it (hence partial). *)
Theorem C50_name_maximal_partial : forall E l v l', env_ok E -> parseName E l = (Ret v, l') ->
  exists n after, l = n ++ after /\ v = utf8 n /\
    match n with [] => False | c :: run => (isLetter E c || (c =? 95) || (c =? 58)) = true /\ Forall (fun x => nameRest E x = true) run end /\
    (match after with [] => True | x :: _ => nameRest E x = false end) /\
    (peek E after <> 0 -> l' = after) /\ (forall t, after = 0 :: t -> l' = t).
Proof. exact parseName_inv. Qed.
Theorem C50_class : forall E, env_ok E -> forall x, nameRest E x = isLetter E x || isDigit E x || (x =? 46) || (x =? 45) || (x =? 95) || (x =? 58).
Proof. exact nameRest_class. Qed.
Theorem C50_nul_skipped_refuted : exists x, x = s_ "<r" ++ [0] ++ s_ "/>" /\ forall eof, eof_ok eof -> accepted eof x.
Proof. exists (s_ "<r" ++ [0] ++ s_ "/>"). split; [reflexivity|]. wit. Qed.
Example C50_ex : forall eof, parseName (env0 eof false) (s_ "ab.c-1 x") = (Ret (s_ "ab.c-1"), s_ " x").
Proof. intros eof. vm_compute. reflexivity. Qed.

(* ---- C51: qualified names ---- *)
Theorem C51_split : forall E, env_ok E -> forall p l s, qnamed E p l -> name_end E s -> hd 0 s <> 58 ->
  parseQName E (qname p l ++ s) = (Ret (utf8 l, utf8 p), s).
Proof. exact parseQName_app. Qed.
Example C51_ex : forall eof, qnamed (env0 eof false) (s_ "p") (s_ "l") /\ name_end (env0 eof false) (s_ " a=") /\ hd 0 (s_ " a=") <> 58.
Proof. intros eof. split; [split; [right; nc|nc]|]. split; [split; [reflexivity|discriminate]|discriminate]. Qed.

(* ---- C53: blank character data ---- *)
Theorem C53_blank_run : forall E, env_ok E -> forall S (H : handler S), accepts S H ->
  forall s t t' rest, inp s = t ++ rest -> t <> [] -> blanks t -> starts_markup rest -> eol t t' ->
  delivers (parseCharData E S H false) s rest
    [if ignorable (negb (Nat.eqb (List.length (nodeTab s)) 0))
          (match nodeTab s with [] => None | e :: _ => h_mixed H (hs s) (nodeName e) end) rest
     then EIgnorableWhitespace (utf8 t') else ECharacters (utf8 t')].
Proof. exact blanks_delivered. Qed.
Example C53_ex : blanks [10; 32; 32] /\ starts_markup (s_ "<b/>") /\ eol [13; 10; 32] [10; 32] /\
  forall eof, eof_ok eof -> body eof (s_ "<r>  <b/> &lt;</r>") =
    [EStartElement (s_ "r") [] [] [] []; EIgnorableWhitespace (s_ "  "); EStartElement (s_ "b") [] [] [] []; EEndElement (s_ "b") [] [];
     ECharacters (s_ " "); ECharacters (s_ "<"); EEndElement (s_ "r") [] []].
Proof. split; [lit|]. split; [right; left; reflexivity|]. split; [constructor; constructor; [discriminate|constructor]|]. wit. Qed.

(* ---- C55: well-formed documents are parsed to their meaning ---- *)
(* Missing: what the grammar leaves out (document type declarations and the
   refuted cases above).  [same_text] allows white space to be reported as
   ignorable, see C53. *)
Theorem C55_document_events_partial : forall E, env_ok E -> forall S (H : handler S), accepts S H ->
  forall src i evs d, document E src i evs d -> declared_once evs d ->
  forall bom n h, bom_ok bom -> (List.length src < n)%nat ->
  exists evs' s', Forall2 same_text evs evs' /\ Parse E S H n h (bom ++ utf8 src) = (Ret tt, s') /\
    rev (map fst (tr s')) = ESetDocumentLocator :: EStartDocument :: evs' ++ [EEndDocument].
Proof. exact document_events. Qed.
Example C55_ex : forall eof, document (env0 eof false) ex_src
    {| di_version := s_ "1.0"; di_encoding := Some (s_ "utf-8"); di_standalone := None |} ex_events [(s_ "p", s_ "u")] /\
  declared_once ex_events [(s_ "p", s_ "u")] /\ bom_ok [239; 187; 191].
Proof. intros eof. split; [apply ex_document|]. split; [apply ex_once|right; reflexivity]. Qed.
(* ill-formed continuations of a well-formed beginning *)
Theorem C55_ill_formed_refused_partial : forall E, env_ok E -> forall S (H : handler S), accepts S H ->
  forall src name d evs r, place E src name d evs -> bad E name d evs r -> valids r ->
  forall bom n h, bom_ok bom -> (List.length (src ++ r) < n)%nat ->
  exists e, fst (Parse E S H n h (bom ++ utf8 (src ++ r))) = Fail e.
Proof. exact place_refused. Qed.

(* ---- assumptions ---- *)
Print Assumptions C08_content_exact_partial.
Print Assumptions C08_illegal_refused_partial.
Print Assumptions C08_malformed_refused_partial.
Print Assumptions C08_entity_value_exact.
Print Assumptions C08_wraps_refuted.
Print Assumptions C09_legal_partial.
Print Assumptions C09_illegal_refused_partial.
Print Assumptions C09_cdata_refuted.
Print Assumptions C10_value_partial.
Print Assumptions C10_crlf_refuted.
Print Assumptions C11_tokens_partial.
Print Assumptions C11_blank_panics_refuted.
Print Assumptions C11_document_panics_refuted.
Print Assumptions C15_nested.
Print Assumptions C16_order.
Print Assumptions C17_one_root_partial.
Print Assumptions C17_no_root_refused.
Print Assumptions C17_second_root_refused.
Print Assumptions C17_cut_refused.
Print Assumptions C17_junk_after_refuted.
Print Assumptions C17_open_root_refuted.
Print Assumptions C18_mismatch_refused_partial.
Print Assumptions C18_end_tag_partial.
Print Assumptions C18_missing_end_refuted.
Print Assumptions C18_blank_end_refuted.
Print Assumptions C19_failure_stops.
Print Assumptions C19_unspecified_is_nil.
Print Assumptions C20_wrapped_once.
Print Assumptions C20_wrap_idempotent.
Print Assumptions C21_terminates_partial.
Print Assumptions C21_hangs_refuted.
Print Assumptions C21_subset_hangs_refuted.
Print Assumptions C21_cdata_hangs_refuted.
Print Assumptions C21_loop.
Print Assumptions C44_self_reference_partial.
Print Assumptions C44_expansion_terminates_partial.
Print Assumptions C22_no_panic_partial.
Print Assumptions C22_unknown_entity_refuted.
Print Assumptions C22_entity_value_refuted.
Print Assumptions C22_default_value_refuted.
Print Assumptions C23_duplicate_refuted.
Print Assumptions C24_start_tag_partial.
Print Assumptions C24_unbound_refused_partial.
Print Assumptions C24_leak_refuted.
Print Assumptions C24_override_refuted.
Print Assumptions C24_default_reported_refuted.
Print Assumptions C25_verbatim.
Print Assumptions C25_only_comments_partial.
Print Assumptions C25_hyphens_refused.
Print Assumptions C25_unterminated_refuted.
Print Assumptions C26_verbatim.
Print Assumptions C26_verbatim_empty.
Print Assumptions C26_only_instructions_partial.
Print Assumptions C26_xml_refused_partial.
Print Assumptions C26_capital_xml_refuted.
Print Assumptions C27_verbatim_partial.
Print Assumptions C27_empty_cdata_refuted.
Print Assumptions C28_delivered.
Print Assumptions C28_only_text.
Print Assumptions C28_cdend_refused.
Print Assumptions C28_slash_gt_refuted.
Print Assumptions C29_fields_partial.
Print Assumptions C29_trailing_blank_refuted.
Print Assumptions C29_stylesheet_refuted.
Print Assumptions C29_malformed_accepted_refuted.
Print Assumptions C50_name_maximal_partial.
Print Assumptions C50_class.
Print Assumptions C50_nul_skipped_refuted.
Print Assumptions C51_split.
Print Assumptions C53_blank_run.
Print Assumptions C55_document_events_partial.
Print Assumptions C55_ill_formed_refused_partial.
