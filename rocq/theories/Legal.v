(* C09: whatever the parser hands over as text, comment or processing
   instruction consists of characters of the XML Char production.  Proof
   file; the characters are read off the delivered bytes with runes_of. *)
From Verif Require Import Base Utf8 Utf8Proofs XmlSpec Encoding Scan Parser ScanProofs Effects LexProofs TextProofs.
From Coq Require Import ZifyBool.
Local Open Scope Z_scope.

(* ---- specification ---- *)
(* every character of a byte string is one of production [2] *)
Definition legal_str (s : str) : Prop := Forall (fun c => xml_char c = true) (runes_of s).
Definition legal_event (e : event) : Prop :=
  match e with
  | ECharacters s | EIgnorableWhitespace s | EComment s => legal_str s
  | EProcessingInstruction t d => legal_str t /\ legal_str d
  | _ => True
  end.

(* ---- strings ---- *)
Lemma xml_rune_error : xml_char RuneError = true. Proof. reflexivity. Qed.
Lemma xml_valid : forall c, xml_char c = true -> valid_rune c = true.
Proof. intros c. unfold xml_char, valid_rune. lia. Qed.
Lemma Forall_valid : forall cs, Forall (fun c => xml_char c = true) cs -> Forall (fun r => valid_rune r = true) cs.
Proof. intros cs H. eapply Forall_impl; [|exact H]. intros; apply xml_valid; auto. Qed.
Lemma legal_utf8 : forall cs, Forall (fun c => xml_char c = true) cs -> legal_str (utf8 cs).
Proof. intros cs H. unfold legal_str. rewrite runes_of_utf8; auto. apply Forall_valid; auto. Qed.
Lemma Forall_crlf : forall (Q : Z -> Prop) cs, Forall Q cs -> Forall Q (crlf cs).
Proof.
  intros Q cs H. pose proof (crlf_lf cs) as L. induction L; auto.
  - inversion H; subst. inversion H3; subst. constructor; auto.
  - inversion H; subst. constructor; auto.
Qed.
Lemma runes_cons : forall b t, runes_of (b :: t) = fst (decode_rune (b :: t)) :: runes_of (skipn (snd (decode_rune (b :: t))) (b :: t)).
Proof. intros b t. unfold runes_of. rewrite chunks_unfold by discriminate. reflexivity. Qed.
Lemma legal_cont : forall q, Forall (fun b => 128 <= b < 192) q -> legal_str q.
Proof.
  unfold legal_str. induction 1 as [|b q Hb Hq IH]; [constructor|].
  rewrite runes_cons. assert (D : decode_rune (b :: q) = (RuneError, 1%nat)).
  { unfold decode_rune. destruct (Z.ltb_spec b 128); [lia|].
    destruct ((194 <=? b) && (b <=? 223)) eqn:?; [lia|].
    destruct ((224 <=? b) && (b <=? 239)) eqn:?; [lia|].
    destruct ((240 <=? b) && (b <=? 244)) eqn:?; [lia|auto]. }
  rewrite D. cbn [fst snd skipn]. constructor; [apply xml_rune_error|exact IH].
Qed.
(* a cut encoding: nothing but replacement characters *)
Local Ltac fin_ := match goal with X : [] = _ ++ _ |- _ => symmetry in X; apply app_eq_nil in X as [_ X]; congruence end.
Lemma legal_cut : forall c p q, valid_rune c = true -> encode_rune c = p ++ q -> q <> [] -> p <> [] -> legal_str p /\ Forall (fun b => 128 <= b) p.
Proof.
  intros c p q Hv He Hq Hp. unfold encode_rune in He. rewrite Hv in He. unfold valid_rune in Hv.
  assert (One : forall b, 128 <= b -> legal_str [b]).
  { intros b Hb. unfold legal_str. rewrite runes_cons.
    assert (D : decode_rune [b] = (RuneError, 1%nat)).
    { unfold decode_rune. destruct (Z.ltb_spec b 128); [lia|].
      destruct ((194 <=? b) && (b <=? 223)) eqn:?; auto. destruct ((224 <=? b) && (b <=? 239)) eqn:?; auto.
      destruct ((240 <=? b) && (b <=? 244)) eqn:?; auto. }
    rewrite D. repeat constructor. }
  assert (Lead : forall b t, 224 <= b -> (b < 240 -> List.length t = 1%nat) -> (List.length t <= 2)%nat ->
    Forall (fun b => 128 <= b < 192) t -> legal_str (b :: t)).
  { intros b t Hb H1 H2 Ht. unfold legal_str. rewrite runes_cons.
    assert (D : decode_rune (b :: t) = (RuneError, 1%nat)).
    { unfold decode_rune. destruct (Z.ltb_spec b 128); [lia|].
      destruct ((194 <=? b) && (b <=? 223)) eqn:?; [lia|]. destruct ((224 <=? b) && (b <=? 239)) eqn:?.
      - destruct t as [|x [|y t]]; auto. simpl in H1; lia.
      - destruct ((240 <=? b) && (b <=? 244)) eqn:?; auto.
        destruct t as [|x [|y [|z t]]]; auto. simpl in H2; lia. }
    rewrite D. cbn [fst snd skipn]. constructor; [apply xml_rune_error|apply legal_cont; auto]. }
  assert (Hmod : forall z, 128 <= 128 + z mod 64 < 192) by (intros z; pose proof (Z.mod_pos_bound z 64); lia).
  unfold enc_raw in He. destruct (Z.ltb_spec c 128).
  - destruct p as [|x p]; [congruence|]. inversion He; subst. exfalso; fin_.
  - destruct (Z.ltb_spec c 2048); [|destruct (Z.ltb_spec c 65536)].
    + assert (128 <= 192 + c / 64) by (pose proof (Z.div_pos c 64); lia).
      destruct p as [|x [|y p]]; [congruence| |]; inversion He; subst.
      * split; [apply One|repeat constructor]; lia.
      * exfalso; fin_.
    + assert (224 <= 224 + c / 4096) by (pose proof (Z.div_pos c 4096); lia).
      assert (224 + c / 4096 < 240) by (assert (c / 4096 < 16) by (apply Z.div_lt_upper_bound; lia); lia).
      pose proof (Hmod c). pose proof (Hmod (c / 64)).
      destruct p as [|x [|y [|z p]]]; [congruence| | |]; inversion He; subst.
      * split; [apply One|repeat constructor]; lia.
      * split; [apply Lead; simpl; auto; try lia; repeat constructor; lia|repeat constructor; lia].
      * exfalso; fin_.
    + assert (240 <= 240 + c / 262144) by (pose proof (Z.div_pos c 262144); lia).
      pose proof (Hmod c). pose proof (Hmod (c / 64)). pose proof (Hmod (c / 4096)).
      destruct p as [|x [|y [|z [|w p]]]]; [congruence| | | |]; inversion He; subst.
      * split; [apply One|repeat constructor]; lia.
      * split; [apply Lead; simpl; auto; try lia; repeat constructor; lia|repeat constructor; lia].
      * split; [apply Lead; simpl; auto; try lia; repeat constructor; lia|repeat constructor; lia].
      * exfalso; fin_.
Qed.
Lemma cut_utf8 : forall cs k, Forall (fun c => valid_rune c = true) cs ->
  exists cs1 p, firstn k (utf8 cs) = utf8 cs1 ++ p /\ (forall Q : Z -> Prop, Forall Q cs -> Forall Q cs1) /\
    legal_str p /\ Forall (fun b => 128 <= b) p.
Proof.
  induction cs as [|c cs IH]; intros k Hv.
  - exists [], []. rewrite firstn_nil. repeat split; auto. constructor.
  - inversion Hv as [|? ? Hc Hcs]; subst. change (utf8 (c :: cs)) with (encode_rune c ++ utf8 cs). rewrite firstn_app.
    destruct (Nat.le_gt_cases (List.length (encode_rune c)) k).
    + rewrite firstn_all2 by auto. destruct (IH (k - List.length (encode_rune c))%nat Hcs) as (cs1 & p & A1 & A2 & A3 & A4).
      rewrite A1. exists (c :: cs1), p. rewrite app_assoc. repeat split; auto.
      intros Q HQ; inversion HQ; subst; constructor; auto.
    + replace (k - List.length (encode_rune c))%nat with 0%nat by lia. rewrite firstn_O, app_nil_r.
      exists [], (firstn k (encode_rune c)). split; auto. split; [constructor|].
      destruct k as [|k]; [split; constructor|].
      apply legal_cut with (c := c) (q := skipn (S k) (encode_rune c)); auto.
      * symmetry; apply firstn_skipn.
      * intros X. apply (f_equal (@List.length Z)) in X. rewrite skipn_length in X. simpl in X. lia.
      * pose proof (encode_nonempty c). destruct (encode_rune c); [congruence|discriminate].
Qed.
Lemma lf_app_high : forall a b p, lf a b -> Forall (fun x => 128 <= x) p -> lf (a ++ p) (b ++ p).
Proof.
  intros a b p H Hp. induction H; cbn [app].
  - rewrite <- (app_nil_r p). apply lf_high; auto. constructor.
  - constructor; auto.
  - constructor; auto. intros Hc. specialize (H Hc). destruct a; simpl in *; auto.
    destruct p; simpl; [lia|]. inversion Hp; lia.
Qed.
Lemma legal_truncated : forall cs k, Forall (fun c => xml_char c = true) cs -> legal_str (crlf (firstn k (utf8 cs))).
Proof.
  intros cs k H. destruct (cut_utf8 cs k (Forall_valid _ H)) as (cs1 & p & A1 & A2 & A3 & A4). rewrite A1.
  assert (X : crlf (utf8 cs1 ++ p) = utf8 (crlf cs1) ++ p).
  { apply (lf_fun (utf8 cs1 ++ p)); [apply crlf_lf|]. rewrite <- crlf_utf8. apply lf_app_high; auto. apply crlf_lf. }
  rewrite X. unfold legal_str. pose proof (A2 _ H) as H1. pose proof (Forall_crlf _ _ H1) as H2.
  rewrite runes_of_utf8_app by (apply Forall_valid; auto). apply Forall_app; auto.
Qed.

(* ---- scanners ---- *)
Section Legal.
Variable E : env.
Variable S : Type.
Variable H : handler S.
Hypothesis OK : env_ok E.
(* letters and digits are XML characters *)
Hypothesis NC : forall c, isLetter E c || isDigit E c = true -> xml_char c = true.
(* the entities the handler knows: those without a name and those marked as
   predefined have legal contents *)
Definition plain_ent (e : ent) : Prop :=
  e_name e = [] \/ e_type e = InternalPredefinedEntity -> legal_str (e_content e).
Hypothesis HE : forall h v n e b, snd (h_getEntity H h v n) = Answer (Some (Real e)) b -> plain_ent e.
Hypothesis HD : forall h n e, h_docEntity H h n = Some (Some e) -> plain_ent e.

Definition gives {A} (p : P A) (Q : A -> Prop) : Prop := forall l a, fst (p l) = Ret a -> Q a.
Lemma gives_comment : gives (scanComment E) legal_str.
Proof.
  intros l a Ha. unfold scanComment in Ha. unfold pbind at 1 in Ha. unfold pconsume in Ha.
  destruct (has_prefix (s_ "<!--") l); cbn [negb] in Ha; [|discriminate].
  set (l1 := skipn _ l) in *. destruct (negb (isChar (peekn E 1 l1))) eqn:H1; [discriminate|].
  destruct (negb (isChar (peekn E 2 l1))) eqn:H2; [discriminate|].
  destruct (commentLoop _ _ _) as [cs|] eqn:Hl; [|discriminate]. cbv zeta in Ha. cbn [fst] in Ha.
  assert (X : Forall (fun c => isChar c = true) cs).
  { clear -Hl. revert Hl. generalize (peekn E 1 l1) (peekn E 2 l1). generalize (tl (tl l1)). intros l0. revert cs.
    induction l0 as [|c t IH]; intros cs q r; cbn [commentLoop].
    - intros Hx; inversion Hx; constructor.
    - destruct (negb (isChar c)) eqn:Hc; cbn [orb].
      + intros Hx; inversion Hx; constructor.
      + destruct ((q =? 45) && (r =? 45) && (c =? 62)); [intros Hx; inversion Hx; constructor|].
        destruct ((q =? 45) && (r =? 45)); [discriminate|].
        destruct (commentLoop r c t) as [cs'|] eqn:Ht; [|discriminate]. intros Hx; inversion Hx; subst.
        constructor; [destruct (isChar c); auto; discriminate|eapply IH; eauto]. }
  assert (Y : a = crlf (firstn (List.length (utf8 (peekn E 1 l1 :: peekn E 2 l1 :: cs)) - 2) (utf8 (peekn E 1 l1 :: peekn E 2 l1 :: cs)))) by congruence.
  subst a. apply legal_truncated. constructor; [apply isChar_xml; destruct (isChar (peekn E 1 l1)); auto; discriminate|].
  constructor; [apply isChar_xml; destruct (isChar (peekn E 2 l1)); auto; discriminate|].
  eapply Forall_impl; [|exact X]. intros; apply isChar_xml; auto.
Qed.
Lemma gives_charData : gives (scanCharData E false) legal_str.
Proof.
  intros l a Ha. unfold scanCharData in Ha. destruct (charDataLoop E false l) as [cs| |] eqn:Hl; try discriminate.
  assert (X : Forall (fun c => isChar c = true) cs).
  { clear -Hl. revert cs Hl. induction l as [|c t IH]; intros cs; cbn [charDataLoop].
    - destruct (eofr E =? 0); intros Hx; inversion Hx; constructor.
    - destruct (c =? 0); [intros Hx; inversion Hx; constructor|]. cbn [negb andb].
      destruct ((c =? 60) || (c =? 38) || negb (isChar c)) eqn:Hc; [intros Hx; inversion Hx; constructor|].
      destruct (_ && _ && _); [discriminate|]. destruct (charDataLoop E false t) as [cs'| |]; try discriminate.
      intros Hx; inversion Hx; subst. constructor; [destruct (isChar c); auto; cbn in Hc; rewrite orb_true_r in Hc; discriminate|eapply IH; eauto]. }
  assert (Y : a = crlf (utf8 cs)) by (destruct cs; [discriminate|cbn [fst] in Ha; congruence]).
  subst a. rewrite crlf_utf8. apply legal_utf8, Forall_crlf. eapply Forall_impl; [|exact X]. intros; apply isChar_xml; auto.
Qed.
Lemma nm_char : forall c, nameRest E c = true -> xml_char c = true.
Proof.
  intros c Hc. unfold nameRest in Hc.
  destruct (isLetter E c || isDigit E c) eqn:HX; [apply NC; auto|].
  apply orb_false_iff in HX as [H1 H2].
  unfold xml_char. destruct (isLetter E c), (isDigit E c); try discriminate. lia.
Qed.
Lemma gives_name : gives (parseName E) legal_str.
Proof.
  intros l a Ha. destruct (parseName E l) as [o l'] eqn:He. cbn [fst] in Ha. subst o.
  destruct (parseName_inv E l a l' OK He) as (n & after & G1 & G2 & G3 & G4 & _). subst a.
  apply legal_utf8. destruct n as [|c run]; [destruct G3|]. destruct G3 as [G3 G3']. constructor.
  - unfold startName in G3. destruct (isLetter E c) eqn:HL; [apply NC; rewrite HL; auto|]. unfold xml_char. cbn in G3. lia.
  - eapply Forall_impl; [|exact G3']. intros x Hx. apply nm_char; auto.
Qed.


Lemma gives_bind : forall A B (p : P A) (f : A -> P B) (Q : A -> Prop) R, gives p Q -> (forall a, Q a -> gives (f a) R) -> gives (pbind p f) R.
Proof.
  intros A B p f Q R Hp Hf l b Hb. unfold pbind in Hb. specialize (Hp l). destruct (p l) as [[a|e| |] l1]; try discriminate.
  cbn [fst] in *. apply (Hf a (Hp a eq_refl) l1 b). exact Hb.
Qed.
Lemma gives_wrap : forall A (p : P A) Q, gives p Q -> gives (pwrap p) Q.
Proof. intros A p Q Hp l a Ha. unfold pwrap in Ha. specialize (Hp l). destruct (p l) as [[x|e| |] l1]; cbn [fst] in *; try discriminate. apply Hp; auto. Qed.
Lemma gives_any : forall A (p : P A), gives p (fun _ => True). Proof. intros A p l a Ha; exact I. Qed.
Lemma gives_ret : forall A (a : A) (Q : A -> Prop), Q a -> gives (pret a) Q.
Proof. intros A a Q HQ l b Hb. cbn in Hb. congruence. Qed.
Lemma gives_fail : forall A e (Q : A -> Prop), gives (pfail e) Q.
Proof. intros A e Q l b Hb. discriminate. Qed.
Lemma gives_PI : gives (scanPI E) (fun td => legal_str (fst td) /\ legal_str (snd td)).
Proof.
  unfold scanPI. eapply gives_bind; [apply gives_any|]. intros ok _. destruct (negb ok); [apply gives_fail|].
  eapply gives_bind with (Q := legal_str).
  { apply gives_wrap. unfold parsePITarget. eapply gives_bind; [apply gives_wrap, gives_name|]. intros nm Hnm.
    destruct (str_eqb nm (s_ "xml")); [apply gives_fail|].
    destruct (str_eqb _ _ || str_eqb _ _); [apply gives_ret; auto|]. destruct (mem_byte 58 nm); [apply gives_fail|apply gives_ret; auto]. }
  intros t Ht. eapply gives_bind; [apply gives_any|]. intros fin _. destruct fin; [apply gives_ret; split; auto; constructor|].
  eapply gives_bind; [apply gives_any|]. intros c _. destruct (negb (isBlankCh c)); [apply gives_fail|].
  eapply gives_bind; [apply gives_any|]. intros _ _.
  eapply gives_bind with (Q := fun d => Forall (fun c => isChar c = true) d).
  { intros l a Ha. cbn [fst] in Ha. assert (a = piLoop E l) by congruence. subst a. destruct (piLoop_prefix E l) as (x & _ & X & _). exact X. }
  intros d Hd. eapply gives_bind; [apply gives_any|]. intros ok2 _. destruct (negb ok2); [apply gives_fail|]. apply gives_ret.
  split; auto. apply legal_utf8. eapply Forall_impl; [|exact Hd]. intros; apply isChar_xml; auto.
Qed.
Lemma gives_charRef : gives (parseCharRef E) (fun v => legal_str (encode_rune v)).
Proof.
  unfold parseCharRef. eapply gives_bind; [apply gives_any|]. intros hex _. eapply gives_bind; [apply gives_any|]. intros dec _.
  destruct (negb dec); [apply gives_fail|]. intros l v Hv.
  destruct (crefLoop _ _ _) as [[val|] l']; [|discriminate]. cbv zeta in Hv.
  destruct (isChar val && (val <=? 1114111)) eqn:HX; [|discriminate]. cbn [fst] in Hv. assert (v = val) by congruence. subst v.
  apply andb_true_iff in HX as [HX _]. replace (encode_rune val) with (utf8 [val]) by (cbn; apply app_nil_r).
  apply legal_utf8. constructor; [apply isChar_xml; auto|constructor].
Qed.

(* ---- the parser ---- *)
Notation M := (M S).
Notation pst := (pst S).
Definition legal_tr (s : pst) : Prop := Forall (fun p => legal_event (fst p)) (tr s).
Definition only {A} (Q : A -> Prop) (m : M A) : Prop := forall s, legal_tr s ->
  legal_tr (snd (m s)) /\ (forall a, fst (m s) = Ret a -> Q a).
Definition any {A} (a : A) : Prop := True.

Lemma only_bind : forall A B (Q : A -> Prop) (R : B -> Prop) (m : M A) (f : A -> M B),
  only Q m -> (forall a, Q a -> only R (f a)) -> only R (bind S m f).
Proof.
  intros A B Q R m f Hm Hf s Hs. destruct (Hm s Hs) as [H1 H2]. unfold bind.
  destruct (m s) as [[a|e| |] s1]; cbn [fst snd] in *; try (split; [auto|discriminate]).
  apply (Hf a (H2 a eq_refl)); auto.
Qed.
Lemma only_wrap : forall A (Q : A -> Prop) m, only Q m -> only Q (wrap S m).
Proof.
  intros A Q m Hm s Hs. destruct (Hm s Hs) as [H1 H2]. unfold wrap. destruct (m s) as [[a|e| |] s1]; cbn [fst snd] in *; split; auto; discriminate.
Qed.
Lemma only_any : forall A (Q : A -> Prop) m, only Q m -> only any m.
Proof. intros A Q m Hm s Hs. split; [apply Hm; auto|intros; exact I]. Qed.
Lemma only_quiet : forall A (m : M A), (forall s, tr (snd (m s)) = tr s) -> only any m.
Proof. intros A m Hm s Hs. split; [unfold legal_tr; rewrite Hm; auto|intros; exact I]. Qed.
Lemma only_ret : forall A (Q : A -> Prop) a, Q a -> only Q (ret S a).
Proof. intros A Q a HQ s Hs. split; auto. cbn. intros; congruence. Qed.
Lemma only_fail : forall A (Q : A -> Prop) e, only Q (@fail S A e).
Proof. intros A Q e s Hs. split; auto. discriminate. Qed.
Lemma only_failw : forall A (Q : A -> Prop) e, only Q (@failw S A e).
Proof. intros A Q e s Hs. split; auto. discriminate. Qed.
Lemma only_pan : forall A (Q : A -> Prop), only Q (@pan S A).
Proof. intros A Q s Hs. split; auto. discriminate. Qed.
Lemma only_oof : forall A (Q : A -> Prop), only Q (@oof S A).
Proof. intros A Q s Hs. split; auto. discriminate. Qed.
Lemma only_lift : forall A (p : P A) Q, gives p Q -> only Q (lift S p).
Proof.
  intros A p Q Hp s Hs. unfold lift. specialize (Hp (inp s)). destruct (p (inp s)) as [o l]. cbn [fst snd] in *. split; auto.
Qed.
Lemma only_lift_any : forall A (p : P A), only any (lift S p).
Proof. intros A p. apply only_lift. intros l a _; exact I. Qed.
Lemma only_mlift : forall A (o : outcome gerr A), only any (mlift S o).
Proof. intros A o s Hs. split; auto. intros; exact I. Qed.
Lemma only_get : forall A (f : pst -> A), only any (get S f).
Proof. intros A f s Hs. split; auto. intros; exact I. Qed.
Lemma only_modify : forall f, (forall s, tr (f s) = tr s) -> only any (modify S f).
Proof. intros f Hf. apply only_quiet. exact Hf. Qed.
Lemma only_emit_raw : forall e, legal_event e -> only any (emit_raw S H e).
Proof.
  intros e He s Hs. unfold emit_raw. destruct (h_event _ _ _ _) as [h' r]. split; [|intros; exact I].
  assert (legal_tr (add_event S h' (e, r) s)) by (constructor; auto). destruct r; auto.
Qed.
Lemma only_emit : forall e, legal_event e -> only any (emit S H e).
Proof. intros e He. apply only_wrap, only_emit_raw; auto. Qed.
Lemma only_always : forall A (Q : A -> Prop) (m : M A) c, only Q m -> only Q (always S m c).
Proof.
  intros A Q m c Hm s Hs. destruct (Hm s Hs) as [H1 H2]. unfold always. destruct (m s) as [[a|e| |] s1]; cbn [fst snd] in *; split; auto.
Qed.
Lemma only_blanks : forall t, only any (areBlanks E S H t).
Proof. intros t. apply only_quiet. reflexivity. Qed.
Lemma only_query : forall n, only (fun a => forall e, fst a = Some (Real e) -> plain_ent e) (queryEntity S H n).
Proof.
  intros n s Hs. unfold queryEntity. destruct (h_getEntity H (hs s) (the_view S s) n) as [h' a] eqn:Ha.
  destruct a as [e b|]; (split; [exact Hs|]); [|discriminate]. intros a Hx e' He. cbn [fst] in Hx.
  assert (a = (e, b)) by congruence. subst a. cbn in He. subst e. apply (HE (hs s) (the_view S s) n e' b). rewrite Ha; auto.
Qed.
Lemma only_queryP : forall n, only any (queryPEntity S H n).
Proof. intros n. apply only_quiet. intros s. unfold queryPEntity. destruct (h_getPEntity _ _ _ _) as [h' [e b|]]; reflexivity. Qed.
Lemma only_getEntity : forall n, only (fun a => forall e, a = Some e -> plain_ent e) (getEntity S H n).
Proof.
  intros n s Hs. unfold getEntity. destruct (inSubset s =? 0); [split; auto; intros a Ha e He; cbn [fst] in Ha; congruence|].
  destruct (h_docEntity H (hs s) n) as [r|] eqn:Hr; (split; [exact Hs|]); [|discriminate].
  intros a Ha e He. cbn [fst] in Ha. subst a. apply (HD (hs s) n e). congruence.
Qed.
Ltac osolve := first [ assumption | apply only_failw | apply only_fail | apply only_oof | apply only_pan | apply only_get | apply only_lift_any
  | apply only_mlift | apply only_blanks | apply only_queryP | apply only_ret; exact I | eapply only_any; apply only_query
  | eapply only_any; apply only_getEntity
  | apply only_emit; exact I | apply only_emit_raw; exact I | apply only_modify; reflexivity ].
Ltac unf := unfold mpeek, mpeekn, madvance, mhas, mconsume, mdone, mskip.
Ltac ostep := first [ osolve | match goal with
  | |- forall _, _ => intro
  | |- only _ (bind _ _ _) => eapply only_bind with (Q := any)
  | |- only _ (wrap _ _) => apply only_wrap
  | |- only _ (always _ _ _) => apply only_always
  | |- only _ (if ?b then _ else _) => destruct b
  | |- only _ (let '(_, _) := ?x in _) => destruct x
  | |- only _ (match ?x with _ => _ end) => destruct x
  | |- only _ (let _ := _ in _) => cbv zeta
  end ].
Ltac oall := unf; repeat ostep.

Lemma only_PI : only any (parsePI E S H).
Proof. unfold parsePI. eapply only_bind; [apply only_lift, gives_PI|]. intros td Htd. apply only_emit. exact Htd. Qed.
Lemma only_comment : only any (parseComment E S H).
Proof. unfold parseComment. eapply only_bind; [apply only_lift, gives_comment|]. intros td Htd. apply only_emit. exact Htd. Qed.
Lemma only_charData : forall b, only any (parseCharData E S H b).
Proof.
  intros b. unfold parseCharData. destruct b; [oall|].
  eapply only_bind; [apply only_lift, gives_charData|]. intros t Ht.
  eapply only_bind with (Q := any); [osolve|]. intros b _. destruct b; apply only_emit; exact Ht.
Qed.
Lemma only_CDSect : only any (parseCDSect E S H).
Proof. unfold parseCDSect. oall. apply only_charData. Qed.
Lemma predefined_legal : forall n c, predefined n = Some c -> legal_str c.
Proof.
  intros n c. unfold predefined. repeat match goal with |- context [if ?b then _ else _] => destruct b end;
    intros Hx; inversion Hx; subst; repeat (constructor; [reflexivity|]); constructor.
Qed.

Lemma only_entityRef : only plain_ent (parseEntityRef E S H).
Proof.
  unfold parseEntityRef. unf.
  eapply only_bind with (Q := any); [osolve|]; intros c _. destruct (negb (c =? 38)); [osolve|].
  eapply only_bind with (Q := any); [osolve|]; intros _ _.
  eapply only_bind with (Q := any); [osolve|]; intros name _.
  eapply only_bind with (Q := any); [osolve|]; intros c2 _. destruct (negb (c2 =? 59)); [osolve|].
  eapply only_bind with (Q := any); [osolve|]; intros _ _.
  destruct (predefined name) as [ct|] eqn:Hp.
  { apply only_ret. intros _. cbn. eapply predefined_legal; eauto. }
  eapply only_bind; [apply only_query|]. intros [q b] Hq. cbn [fst snd] in *. destruct (negb b).
  { destruct q as [[e|]|]; try osolve. apply only_ret. auto. }
  eapply only_bind with (Q := fun a => forall e, a = Some e -> plain_ent e).
  { destruct q; [apply only_ret; discriminate|apply only_getEntity]. }
  intros [e|] He.
  - destruct (e_type e =? _); [osolve|]. destruct (e_type e =? _); [osolve|]. apply only_ret; auto.
  - oall.
Qed.
Lemma only_entityRef_any : only any (parseEntityRef E S H).
Proof. eapply only_any, only_entityRef. Qed.
Lemma only_valueLoop : forall n q nm b sp en, only any (attrValueLoop E S H n q nm b sp en).
Proof.
  induction n as [|n IH]; intros; cbn [attrValueLoop]; [osolve|]. unf.
  repeat first [apply IH | apply only_entityRef_any | ostep].
Qed.
Lemma only_value : forall n nm, only any (parseAttributeValue E S H n nm).
Proof. intros. unfold parseAttributeValue, parseAttributeValueInternal. unf. repeat first [apply only_valueLoop | ostep]. Qed.
Lemma only_attribute : forall n nm, only any (parseAttribute E S H n nm).
Proof. intros. unfold parseAttribute. unf. repeat first [apply only_value | ostep]. Qed.
Lemma only_attrLoop : forall n l a k, only any (attrLoop E S H n l a k).
Proof.
  induction n as [|n IH]; intros; cbn [attrLoop]; [osolve|]. unfold afterNSDecl. unf.
  repeat first [apply IH | apply only_attribute | ostep].
Qed.
Lemma only_startTag : forall n, only any (parseStartTag E S H n).
Proof. intros. unfold parseStartTag. unf. repeat first [apply only_attrLoop | ostep]. Qed.
Lemma only_endTag : only any (parseEndTag E S H).
Proof. unfold parseEndTag. oall. Qed.
Lemma only_element : forall n content, only any content -> only any (parseElement E S H n content).
Proof. intros n content Hc. unfold parseElement. unf. repeat first [apply only_startTag | apply only_endTag | ostep]. Qed.
Lemma only_chunk : forall content c, only any content -> only any (parseBalancedChunk S H content c).
Proof.
  intros content c Hc s Hs. split; [|intros; exact I]. unfold parseBalancedChunk. cbv zeta. destruct (40 <? depth s + 1); [auto|].
  match goal with |- context [content ?x] => destruct (Hc x Hs) as [H1 _]; destruct (content x) as [o s1] end. exact H1.
Qed.
Lemma only_reference : forall content, only any content -> only any (parseReference E S H content).
Proof.
  intros content Hc. unfold parseReference. unf.
  eapply only_bind with (Q := any); [osolve|]; intros c _. destruct (negb (c =? 38)); [osolve|].
  eapply only_bind with (Q := any); [osolve|]; intros c2 _. destruct (c2 =? 35).
  - eapply only_bind; [apply only_wrap, only_lift, gives_charRef|]. intros v Hv. apply only_emit. exact Hv.
  - eapply only_bind; [apply only_wrap, only_entityRef|]. intros e He.
    destruct (str_eqb (e_name e) [] || (e_type e =? InternalPredefinedEntity)) eqn:HX.
    + destruct (str_eqb (e_content e) []); [osolve|]. apply only_emit. apply He.
      apply orb_true_iff in HX as [HX|HX]; [left; destruct (str_eqb_spec (e_name e) []); auto; discriminate|right; lia].
    + repeat first [apply only_chunk | ostep].
Qed.
Lemma only_content : forall n, only any (parseContent E S H n).
Proof.
  induction n as [|n IH]; cbn [parseContent]; [osolve|]. unf.
  eapply only_bind with (Q := any); [osolve|]. intros d _. destruct d; [osolve|].
  assert (X : forall m : M unit, only any m -> only any (bind S m (fun _ => parseContent E S H n))).
  { intros m Hm. eapply only_bind; [exact Hm|]. intros _ _. exact IH. }
  intros s Hs. cbv zeta. repeat match goal with |- context [if ?b then _ else _] => destruct b end.
  - apply (only_ret unit any); [exact I|auto].
  - apply X; auto. apply only_wrap, only_PI.
  - apply X; auto. apply only_wrap, only_CDSect.
  - apply X; auto. apply only_wrap, only_comment.
  - apply X; auto. apply only_wrap, only_element; auto.
  - apply X; auto. apply only_wrap, only_reference; auto.
  - apply X; auto. apply only_charData.
Qed.
Lemma only_misc : forall n, only any (parseMisc E S H n).
Proof.
  induction n as [|n IH]; cbn [parseMisc]; [osolve|]. unf.
  eapply only_bind with (Q := any); [osolve|]. intros d _. destruct d; [osolve|].
  assert (X : forall A (m : M A), only any m -> only any (bind S m (fun _ => parseMisc E S H n))).
  { intros A m Hm. eapply only_bind; [exact Hm|]. intros _ _. exact IH. }
  intros s Hs. cbv zeta. repeat match goal with |- context [if ?b then _ else _] => destruct b end.
  - apply X; auto. apply only_wrap, only_PI.
  - apply X; auto. apply only_wrap, only_comment.
  - apply X; auto. osolve.
  - apply (only_ret unit any); [exact I|auto].
Qed.
(* the internal subset *)
Lemma only_PEReference : only any (parsePEReference E S H).
Proof. unfold parsePEReference. oall. Qed.
Lemma only_elementDecl : forall n, only any (parseElementDecl E S H n).
Proof. intros; unfold parseElementDecl. oall. Qed.
Lemma only_entityDecl : only any (parseEntityDecl E S H).
Proof. unfold parseEntityDecl, unquotedEntity. oall. Qed.
Lemma only_defaultDecl : forall n, only any (parseDefaultDecl E S H n).
Proof. intros; unfold parseDefaultDecl, parseAttributeValueInternal. unf. repeat first [apply only_valueLoop | ostep]. Qed.
Lemma only_addDefault : forall a b c, only any (addAttributeDefault S H a b c).
Proof.
  intros; unfold addAttributeDefault. oall.
  apply only_quiet. intros st. destruct (h_createAttr _ _ _ _ _) as [h' [u|u| |]]; reflexivity.
Qed.
Lemma only_attlistLoop : forall n e, only any (attlistLoop E S H n e).
Proof.
  induction n as [|n IH]; intros; cbn [attlistLoop]; [osolve|]. unf.
  repeat first [apply IH | apply only_defaultDecl | apply only_addDefault | ostep].
Qed.
Lemma only_attlist : forall n, only any (parseAttributeListDecl E S H n).
Proof. intros; unfold parseAttributeListDecl. unf. repeat first [apply only_attlistLoop | ostep]. Qed.
Lemma only_markup : forall n, only any (parseMarkupDecl E S H n).
Proof.
  intros n s Hs. unfold parseMarkupDecl. cbv zeta.
  repeat match goal with |- context [peek E ?l =? ?c] => generalize (peek E l =? c); intro end.
  repeat match goal with |- context [peekn E ?k ?l =? ?c] => generalize (peekn E k l =? c); intro end.
  match goal with |- context [?m s] => match type of m with M unit => revert s Hs; change (only any m) | _ => idtac end end.
  repeat first [apply only_elementDecl | apply only_entityDecl | apply only_attlist | apply only_PI | apply only_comment | apply only_PEReference | ostep].
Qed.
Lemma only_subsetLoop : forall n, only any (subsetLoop E S H n).
Proof.
  induction n as [|n IH]; intros; cbn [subsetLoop]; [osolve|]. unf.
  repeat first [apply IH | apply only_markup | apply only_PEReference | ostep].
Qed.
Lemma only_internalSubset : forall n, only any (parseInternalSubset E S H n).
Proof. intros; unfold parseInternalSubset. unf. repeat first [apply only_subsetLoop | ostep]. Qed.
Lemma only_DTD : forall n, only any (parseDTD E S H n).
Proof. intros; unfold parseDTD, parseDocTypeDecl. unf. repeat first [apply only_internalSubset | apply only_misc | ostep]. Qed.
Lemma only_document : forall n, only any (parseDocument E S H n).
Proof.
  intros n. unfold parseDocument. unf.
  repeat first [apply only_DTD | apply only_misc | apply only_element; apply only_content | ostep].
  - apply only_quiet. intros s. destruct (detectEncoding (inp s)) as [[enc rest]|]; reflexivity.
  - apply only_quiet. intros s. unfold switchEncoding. cbv zeta. destruct (Load _ _); reflexivity.
Qed.

Theorem Parse_legal : forall n h bytes e r, In (e, r) (tr (snd (Parse E S H n h bytes))) -> legal_event e.
Proof.
  intros n h bytes e r Hin. unfold Parse in Hin.
  destruct (only_document n (init S h bytes)) as [X _]; [constructor|].
  unfold legal_tr in X. rewrite Forall_forall in X. exact (X _ Hin).
Qed.
End Legal.
