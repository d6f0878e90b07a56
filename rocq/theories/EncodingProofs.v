From Verif Require Import Base Utf8 Utf8Proofs Encoding.

(* The documented names, as a plain table (from the source text of
   /repo/encoding/encoding.go, one row per name). *)
Definition documented : list (string * codec) :=
  [("utf8"%string, E_UTF8);
   ("utf-8"%string, E_UTF8);
   ("euc-jp"%string, E_EUCJP);
   ("shift_jis"%string, E_ShiftJIS);
   ("shift-jis"%string, E_ShiftJIS);
   ("shiftjis"%string, E_ShiftJIS);
   ("cp932"%string, E_ShiftJIS);
   ("jis"%string, E_ISO2022JP);
   ("iso-2022-jp"%string, E_ISO2022JP);
   ("big5"%string, E_Big5);
   ("euc-kr"%string, E_EUCKR);
   ("hz-gb2312"%string, E_HZGB2312);
   ("cp437"%string, E_CodePage437);
   ("cp866"%string, E_CodePage866);
   ("iso-8859-10"%string, E_ISO8859_10);
   ("iso-8859-13"%string, E_ISO8859_13);
   ("iso-8859-14"%string, E_ISO8859_14);
   ("iso-8859-15"%string, E_ISO8859_15);
   ("iso-8859-16"%string, E_ISO8859_16);
   ("iso-8859-2"%string, E_ISO8859_2);
   ("iso-8859-3"%string, E_ISO8859_3);
   ("iso-8859-4"%string, E_ISO8859_4);
   ("iso-8859-5"%string, E_ISO8859_5);
   ("iso-8859-6"%string, E_ISO8859_6);
   ("iso-8859-7"%string, E_ISO8859_7);
   ("iso-8859-8"%string, E_ISO8859_8);
   ("koi8r"%string, E_KOI8R);
   ("koir8u"%string, E_KOI8U);
   ("macintosh"%string, E_Macintosh);
   ("macintoshcyrillic"%string, E_MacintoshCyrillic);
   ("windows1250"%string, E_Windows1250);
   ("windows1251"%string, E_Windows1251);
   ("iso-8859-1"%string, E_Windows1252);
   ("windows1252"%string, E_Windows1252);
   ("windows1253"%string, E_Windows1253);
   ("windows1254"%string, E_Windows1254);
   ("windows1255"%string, E_Windows1255);
   ("windows1256"%string, E_Windows1256);
   ("windows1257"%string, E_Windows1257);
   ("windows1258"%string, E_Windows1258);
   ("windows874"%string, E_Windows874);
   ("xuserdefined"%string, E_XUserDefined)].

Definition doc_lookup (n : str) : option codec :=
  match find (fun p => str_eqb n (s_ (fst p))) documented with Some p => Some (snd p) | None => None end.

Lemma load_table_doc n : load_table n = doc_lookup n.
Proof.
  unfold load_table, doc_lookup, documented. cbn [find fst snd].
  repeat match goal with |- context [str_eqb n ?s] => destruct (str_eqb n s); cbn [orb]; [reflexivity|] end.
  reflexivity.
Qed.

Lemma documented_nodup : NoDup (map (fun p => s_ (fst p)) documented).
Proof.
  assert (K : (fix nd (l : list str) : bool := match l with [] => true | x :: r => negb (existsb (str_eqb x) r) && nd r end)
    (map (fun p => s_ (fst p)) documented) = true) by (vm_compute; reflexivity).
  revert K. generalize (map (fun p => s_ (fst p)) documented). clear.
  induction l as [|x l IH]; intros K; [constructor|].
  apply andb_true_iff in K as [K1 K2]. constructor; [|apply IH; exact K2].
  intro Hin. apply negb_true_iff in K1. assert (existsb (str_eqb x) l = true).
  { apply existsb_exists. exists x. split; [exact Hin|apply str_eqb_refl]. }
  congruence.
Qed.

Lemma documented_ascii_lower :
  Forall (fun p => Forall (fun c => 0 <= c < 128 /\ lower_ascii c = c) (s_ (fst p))) documented.
Proof.
  assert (K : forallb (fun p => forallb (fun c => (0 <=? c) && (c <? 128) && (lower_ascii c =? c)) (s_ (fst p))) documented = true) by (vm_compute; reflexivity).
  apply Forall_forall. intros p Hp. rewrite forallb_forall in K. specialize (K p Hp).
  apply Forall_forall. intros c Hc. rewrite forallb_forall in K. specialize (K c Hc). lia.
Qed.

Definition lower_ok (lower : Z -> Z) : Prop := forall c, 0 <= c < 128 -> lower c = lower_ascii c.

Lemma ascii_runes s : Forall (fun c => 0 <= c < 128) s -> runes_of s = s.
Proof.
  intros H. rewrite <- (utf8_ascii s H) at 1. apply runes_of_utf8.
  eapply Forall_impl; [|exact H]. cbn. unfold valid_rune. lia.
Qed.

Lemma ToLower_ascii lower s :
  lower_ok lower -> Forall (fun c => 0 <= c < 128) s -> ToLower lower s = map lower_ascii s.
Proof.
  intros Hl H. unfold ToLower. rewrite (ascii_runes s H).
  replace (map lower s) with (map lower_ascii s).
  - apply utf8_ascii. apply Forall_forall. intros c Hc. apply in_map_iff in Hc as (x & <- & Hx).
    rewrite Forall_forall in H. specialize (H x Hx). unfold lower_ascii. destruct (_ && _) eqn:E; lia.
  - apply map_ext_in. intros x Hx. symmetry. apply Hl. rewrite Forall_forall in H. apply H. exact Hx.
Qed.

(* every listed name, in any mix of letter case, gives its codec *)
Lemma Load_listed lower name p :
  lower_ok lower -> In p documented ->
  Forall (fun c => 0 <= c < 128) name -> map lower_ascii name = s_ (fst p) ->
  Load lower name = Some (snd p).
Proof.
  intros Hl Hp Ha Hn. unfold Load. rewrite (ToLower_ascii _ _ Hl Ha), Hn, load_table_doc.
  unfold doc_lookup. assert (Hd := documented_nodup). revert Hd Hp. generalize documented.
  induction l as [|q l IH]; intros Hd Hp; [destruct Hp|]. cbn [find].
  cbn [map] in Hd. inversion Hd as [|? ? H1 H2]; subst.
  destruct (str_eqb_spec (s_ (fst p)) (s_ (fst q))) as [E|E].
  - destruct Hp as [->|Hp]; [reflexivity|].
    exfalso. apply H1. rewrite <- E. apply (in_map (fun p => s_ (fst p))). exact Hp.
  - destruct Hp as [->|Hp]; [congruence|]. apply IH; assumption.
Qed.

(* and every other name gives nil *)
Lemma Load_unlisted lower name :
  (forall p, In p documented -> ToLower lower name <> s_ (fst p)) -> Load lower name = None.
Proof.
  intros H. unfold Load. rewrite load_table_doc. unfold doc_lookup.
  destruct (find _ documented) as [p|] eqn:E; [|reflexivity].
  apply find_some in E as [E1 E2]. apply str_eqb_eq in E2. exfalso. exact (H p E1 E2).
Qed.

(* only letter case is forgotten *)
Lemma Load_case lower a b : ToLower lower a = ToLower lower b -> Load lower a = Load lower b.
Proof. intros H. unfold Load. rewrite H. reflexivity. Qed.

Lemma Load_ascii_case lower a b :
  lower_ok lower -> Forall (fun c => 0 <= c < 128) a -> Forall (fun c => 0 <= c < 128) b ->
  map lower_ascii a = map lower_ascii b -> Load lower a = Load lower b.
Proof. intros Hl Ha Hb H. apply Load_case. rewrite !ToLower_ascii by assumption. exact H. Qed.

(* ---- detectEncoding ---- *)
(* The signatures of the XML recommendation, appendix F, with the names this
   package documents for them and whether they are byte order marks. *)
Record signature := { sig_bytes : list Z; sig_name : string; sig_bom : bool }.
Definition signatures : list signature :=
  [ {| sig_bytes := [0; 0; 0; 60]; sig_name := "ucs4be"; sig_bom := false |};
    {| sig_bytes := [60; 0; 0; 0]; sig_name := "ucs4le"; sig_bom := false |};
    {| sig_bytes := [0; 0; 60; 0]; sig_name := "ucs4_2143"; sig_bom := false |};
    {| sig_bytes := [0; 60; 0; 0]; sig_name := "ucs4_3412"; sig_bom := false |};
    {| sig_bytes := [76; 111; 167; 148]; sig_name := "ebcdic"; sig_bom := false |};
    {| sig_bytes := [60; 63; 120; 109]; sig_name := "utf8"; sig_bom := false |};
    {| sig_bytes := [60; 0; 63; 0]; sig_name := "utf16le"; sig_bom := false |};
    {| sig_bytes := [0; 60; 0; 63]; sig_name := "utf16be"; sig_bom := false |};
    {| sig_bytes := [239; 187; 191]; sig_name := "utf8"; sig_bom := true |};
    {| sig_bytes := [254; 255]; sig_name := "utf16be"; sig_bom := true |};
    {| sig_bytes := [255; 254]; sig_name := "utf16le"; sig_bom := true |} ].

Definition starts_with (s : list Z) (g : signature) : Prop := exists t, s = sig_bytes g ++ t.

(* no signature is a prefix of another, so at most one applies *)
Lemma signature_unique s g h :
  In g signatures -> In h signatures -> starts_with s g -> starts_with s h -> g = h.
Proof.
  intros Hg Hh [t Ht] [u Hu]. subst s. cbn [signatures In] in Hg, Hh.
  repeat (destruct Hg as [<-|Hg]; [repeat (destruct Hh as [<-|Hh]; [try reflexivity; discriminate|]); destruct Hh|]).
  destruct Hg.
Qed.

Lemma consume_some p s r : consume p s = Some r -> s = p ++ r.
Proof.
  unfold consume. destruct (has_prefix p s) eqn:E; [|discriminate]. intros H. injection H as <-.
  apply has_prefix_true in E as [t ->]. rewrite skipn_app, skipn_all, Nat.sub_diag. reflexivity.
Qed.
Lemma consume_none p s : consume p s = None -> ~ exists t, s = p ++ t.
Proof.
  unfold consume. destruct (has_prefix p s) eqn:E; [discriminate|]. intros _ H.
  apply has_prefix_true in H. congruence.
Qed.

Definition sig_of (i : nat) : signature := nth i signatures {| sig_bytes := []; sig_name := ""; sig_bom := false |}.
Lemma sig_of_in i : (i < 11)%nat -> In (sig_of i) signatures.
Proof. intros H. apply nth_In. exact H. Qed.

Lemma detect_sound s enc r :
  detectEncoding s = Some (enc, r) ->
  exists g, In g signatures /\ starts_with s g /\ enc = s_ (sig_name g) /\
    (sig_bom g = true -> s = sig_bytes g ++ r).
Proof.
  unfold detectEncoding. intros H.
  destruct (consume patUCS4BE s) as [x|] eqn:E0.
  { injection H as <- <-. exists (sig_of 0). apply consume_some in E0. split; [apply sig_of_in; lia|]. split; [exists x; exact E0|]. split; [reflexivity|discriminate]. }
  destruct (consume patUCS4LE s) as [x|] eqn:E1.
  { injection H as <- <-. exists (sig_of 1). apply consume_some in E1. split; [apply sig_of_in; lia|]. split; [exists x; exact E1|]. split; [reflexivity|discriminate]. }
  destruct (consume patUCS42143 s) as [x|] eqn:E2.
  { injection H as <- <-. exists (sig_of 2). apply consume_some in E2. split; [apply sig_of_in; lia|]. split; [exists x; exact E2|]. split; [reflexivity|discriminate]. }
  destruct (consume patUCS43412 s) as [x|] eqn:E3.
  { injection H as <- <-. exists (sig_of 3). apply consume_some in E3. split; [apply sig_of_in; lia|]. split; [exists x; exact E3|]. split; [reflexivity|discriminate]. }
  destruct (has_prefix patEBCDIC s) eqn:E4.
  { injection H as <- <-. exists (sig_of 4). apply has_prefix_true in E4. split; [apply sig_of_in; lia|]. split; [exact E4|]. split; [reflexivity|discriminate]. }
  destruct (has_prefix patMaybeXMLDecl s) eqn:E5.
  { injection H as <- <-. exists (sig_of 5). apply has_prefix_true in E5. split; [apply sig_of_in; lia|]. split; [exact E5|]. split; [reflexivity|discriminate]. }
  destruct (consume patUTF16LE4B s) as [x|] eqn:E6.
  { injection H as <- <-. exists (sig_of 6). apply consume_some in E6. split; [apply sig_of_in; lia|]. split; [exists x; exact E6|]. split; [reflexivity|discriminate]. }
  destruct (consume patUTF16BE4B s) as [x|] eqn:E7.
  { injection H as <- <-. exists (sig_of 7). apply consume_some in E7. split; [apply sig_of_in; lia|]. split; [exists x; exact E7|]. split; [reflexivity|discriminate]. }
  destruct (consume patUTF8 s) as [x|] eqn:E8.
  { injection H as <- <-. exists (sig_of 8). apply consume_some in E8. split; [apply sig_of_in; lia|]. split; [exists x; exact E8|]. split; [reflexivity|]. intros _; exact E8. }
  destruct (consume patUTF16BE2B s) as [x|] eqn:E9.
  { injection H as <- <-. exists (sig_of 9). apply consume_some in E9. split; [apply sig_of_in; lia|]. split; [exists x; exact E9|]. split; [reflexivity|]. intros _; exact E9. }
  destruct (consume patUTF16LE2B s) as [x|] eqn:E10.
  { injection H as <- <-. exists (sig_of 10). apply consume_some in E10. split; [apply sig_of_in; lia|]. split; [exists x; exact E10|]. split; [reflexivity|]. intros _; exact E10. }
  discriminate.
Qed.

Lemma detect_complete s g :
  In g signatures -> starts_with s g -> exists r, detectEncoding s = Some (s_ (sig_name g), r).
Proof.
  intros Hg Hs. destruct (detectEncoding s) as [[enc r]|] eqn:E.
  - destruct (detect_sound s enc r E) as (h & Hh & Hsh & -> & _).
    rewrite (signature_unique s g h Hg Hh Hs Hsh). exists r. reflexivity.
  - exfalso. unfold detectEncoding in E.
    destruct (consume patUCS4BE s) eqn:E0; [discriminate|]. apply consume_none in E0.
    destruct (consume patUCS4LE s) eqn:E1; [discriminate|]. apply consume_none in E1.
    destruct (consume patUCS42143 s) eqn:E2; [discriminate|]. apply consume_none in E2.
    destruct (consume patUCS43412 s) eqn:E3; [discriminate|]. apply consume_none in E3.
    destruct (has_prefix patEBCDIC s) eqn:E4; [discriminate|]. 
    destruct (has_prefix patMaybeXMLDecl s) eqn:E5; [discriminate|].
    destruct (consume patUTF16LE4B s) eqn:E6; [discriminate|]. apply consume_none in E6.
    destruct (consume patUTF16BE4B s) eqn:E7; [discriminate|]. apply consume_none in E7.
    destruct (consume patUTF8 s) eqn:E8; [discriminate|]. apply consume_none in E8.
    destruct (consume patUTF16BE2B s) eqn:E9; [discriminate|]. apply consume_none in E9.
    destruct (consume patUTF16LE2B s) eqn:E10; [discriminate|]. apply consume_none in E10.
    cbn [signatures In] in Hg.
    destruct Hg as [<-|Hg]; [exact (E0 Hs)|]. destruct Hg as [<-|Hg]; [exact (E1 Hs)|].
    destruct Hg as [<-|Hg]; [exact (E2 Hs)|]. destruct Hg as [<-|Hg]; [exact (E3 Hs)|].
    destruct Hg as [<-|Hg]; [apply (has_prefix_true patEBCDIC) in Hs; congruence|].
    destruct Hg as [<-|Hg]; [apply (has_prefix_true patMaybeXMLDecl) in Hs; congruence|].
    destruct Hg as [<-|Hg]; [exact (E6 Hs)|]. destruct Hg as [<-|Hg]; [exact (E7 Hs)|].
    destruct Hg as [<-|Hg]; [exact (E8 Hs)|]. destruct Hg as [<-|Hg]; [exact (E9 Hs)|].
    destruct Hg as [<-|Hg]; [exact (E10 Hs)|]. destruct Hg.
Qed.

(* When the signature is a byte order mark, or EBCDIC or the start of an XML
   declaration, exactly the mark (or nothing) is consumed. *)
Lemma detect_consumes_bom s g r :
  In g signatures -> starts_with s g ->
  detectEncoding s = Some (s_ (sig_name g), r) ->
  sig_bom g = true -> s = sig_bytes g ++ r.
Proof.
  intros Hg Hs Hd Hb. destruct (detect_sound _ _ _ Hd) as (h & Hh & Hsh & _ & K).
  rewrite (signature_unique s g h Hg Hh Hs Hsh) in *. apply K. exact Hb.
Qed.

Lemma detect_eats_document_refuted :
  exists s g r, In g signatures /\ sig_bom g = false /\ starts_with s g /\
    detectEncoding s = Some (s_ (sig_name g), r) /\ r <> s.
Proof.
  exists [60; 0; 63; 0; 120; 0], (sig_of 6), [120; 0].
  split; [apply sig_of_in; lia|]. split; [reflexivity|]. split; [exists [120; 0]; reflexivity|].
  split; [reflexivity|discriminate].
Qed.
