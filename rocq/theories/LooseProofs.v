(* Whatever the functions of Parser.v accept in a document without document
   type declaration is in the grammar of Loose.v. *)
From Verif Require Import Base Utf8 Utf8Proofs Encoding XmlSpec EscapeProofs Scan ScanProofs LexProofs Parser Grammar TextProofs Complete Local Loose LooseLex.
From Coq Require Import ZifyBool Permutation.

Definition dtd_event (e : event) : bool :=
  match e with
  | EInternalSubset _ _ _ | EExternalSubset _ _ _ | EEntityDecl _ _ _ _ _ | EElementDecl _ _ _ | EAttributeDecl _ _ _ _ _ _ => true
  | _ => false
  end.

Section Inv.
Variable S : Type.
Lemma bind_inv : forall A B (m : M S A) (f : A -> M S B) s b s2, bind S m f s = (Ret b, s2) ->
  exists a s1, m s = (Ret a, s1) /\ f a s1 = (Ret b, s2).
Proof. intros A B m f s b s2 H. unfold bind in H. destruct (m s) as [[a|e| |] s1]; try discriminate. eauto. Qed.
Lemma wrap_inv : forall A (m : M S A) s a s', wrap S m s = (Ret a, s') -> m s = (Ret a, s').
Proof. intros A m s a s' H. unfold wrap in H. destruct (m s) as [[x|e| |] s1]; try discriminate. auto. Qed.
Lemma lift_inv : forall A (p : P A) s a s', lift S p s = (Ret a, s') -> exists l, p (inp s) = (Ret a, l) /\ s' = set_inp S l s.
Proof. intros A p s a s' H. unfold lift in H. destruct (p (inp s)) as [o l]. inversion H; subst. eauto. Qed.
Lemma set_inp_self : forall s : pst S, set_inp S (inp s) s = s. Proof. intros []; reflexivity. Qed.
Lemma set_inp_2 : forall l l' (s : pst S), set_inp S l (set_inp S l' s) = set_inp S l s. Proof. reflexivity. Qed.
End Inv.
Arguments bind_inv {S A B m f s b s2}. Arguments wrap_inv {S A m s a s'}. Arguments lift_inv {S A p s a s'}.

Section S.
Variable E : env.
Hypothesis OK : env_ok E.
Hypothesis NC : forall c, isLetter E c || isDigit E c = true -> xml_char c = true.
Hypothesis OV : forall n l, over E n l = [].
Variable S : Type.
Variable H : handler S.
(* the handler knows no entities, at least until a document type declaration *)
Variable good : S -> Prop.
Hypothesis GE : forall h v e, good h -> dtd_event e = false -> good (fst (h_event H h v e)).
Hypothesis GQ : forall h v n, good h -> forall x, snd (h_getEntity H h v n) <> Answer x false.

Definition calm (s : pst S) : Prop := attsSpecial s = [] /\ attsDefault s = [] /\ inSubset s = 0 /\ good (hs s).
Definition goes (s : pst S) (evs : list event) (s' : pst S) : Prop :=
  map fst (tr s') = rev evs ++ map fst (tr s) /\ nodeTab s' = nodeTab s /\ calm s' /\
  version s' = version s /\ encoding s' = encoding s /\ standalone s' = standalone s.

Lemma goes_refl : forall s, calm s -> goes s [] s. Proof. intros s Hc. repeat split; auto; apply Hc. Qed.
Lemma goes_inp : forall s l, calm s -> goes s [] (set_inp S l s). Proof. intros s l Hc. repeat split; auto; apply Hc. Qed.
Lemma goes_trans : forall s e1 s1 e2 s2, goes s e1 s1 -> goes s1 e2 s2 -> goes s (e1 ++ e2) s2.
Proof.
  intros s e1 s1 e2 s2 (A1 & A2 & A3 & A4 & A5 & A6) (B1 & B2 & B3 & B4 & B5 & B6). split; [|repeat split; try apply B3; congruence].
  rewrite B1, A1, rev_app_distr, app_assoc. reflexivity.
Qed.
Lemma goes_calm : forall s e s', goes s e s' -> calm s'. Proof. intros s e s' Hg. apply Hg. Qed.

Lemma emit_raw_form : forall e s s', calm s -> dtd_event e = false -> emit_raw S H e s = (Ret tt, s') ->
  goes s [e] s' /\ inp s' = inp s /\ nsTab s' = nsTab s.
Proof.
  intros e s s' (A & B & C & D) He Hm. unfold emit_raw in Hm. pose proof (GE (hs s) (the_view S s) e D He) as G.
  destruct (h_event H (hs s) (the_view S s) e) as [h r]. cbn [fst] in G. destruct r; inversion Hm; subst; repeat split; auto.
Qed.
Lemma emit_form : forall e s s', calm s -> dtd_event e = false -> emit S H e s = (Ret tt, s') ->
  goes s [e] s' /\ inp s' = inp s /\ nsTab s' = nsTab s.
Proof. intros e s s' Hc He Hm. apply wrap_inv in Hm. apply emit_raw_form; auto. Qed.

(* ---- peeking and skipping ---- *)
Lemma mpeek_form : forall s c s', mpeek E S s = (Ret c, s') -> s' = s /\ c = peek E (inp s).
Proof. intros s c s' Hm. apply lift_inv in Hm as (l & Hl & ->). inversion Hl; subst. rewrite set_inp_self. auto. Qed.
Lemma mpeekn_form : forall n s c s', mpeekn E S n s = (Ret c, s') -> s' = s /\ c = peekn E n (inp s).
Proof. intros n s c s' Hm. apply lift_inv in Hm as (l & Hl & ->). inversion Hl; subst. rewrite set_inp_self. auto. Qed.
Lemma madvance_form : forall n s u s', madvance E S n s = (Ret u, s') -> s' = set_inp S (advance E n (inp s)) s.
Proof. intros n s u s' Hm. apply lift_inv in Hm as (l & Hl & ->). inversion Hl; subst. auto. Qed.
Lemma mhas_form : forall p s b s', mhas S p s = (Ret b, s') -> s' = s /\ b = has_prefix p (inp s).
Proof. intros p s c s' Hm. apply lift_inv in Hm as (l & Hl & ->). inversion Hl; subst. rewrite set_inp_self. auto. Qed.
Lemma mconsume_form : forall p s b s', mconsume S p s = (Ret b, s') ->
  (b = true /\ exists l, inp s = p ++ l /\ s' = set_inp S l s) \/ (b = false /\ s' = s /\ has_prefix p (inp s) = false).
Proof.
  intros p s c s' Hm. apply lift_inv in Hm as (l & Hl & ->). apply pconsume_inv in Hl as [[-> Hl]|(-> & -> & Hl)]; [left; eauto|right].
  rewrite set_inp_self. auto.
Qed.
Lemma mskip_form : forall s b s', mskip S s = (Ret b, s') -> exists w, inp s = w ++ inp s' /\ blanks w /\ s' = set_inp S (inp s') s /\
  match inp s' with [] => True | c :: _ => blank c = false end.
Proof.
  intros s b s' Hm. apply lift_inv in Hm as (l & Hl & ->). inversion Hl; subst. exists (takeW isBlankCh (inp s)). cbn [inp set_inp].
  split; [symmetry; apply takeW_dropW|]. split; [apply blanks_is, takeW_all|]. split; [auto|].
  pose proof (dropW_head isBlankCh (inp s)) as Hh. destruct (dropW isBlankCh (inp s)); [auto|]. rewrite blank_is. auto.
Qed.

(* ---- references ---- *)
Lemma predefined_names : forall n x, predefined (utf8 n) = Some x -> legals n ->
  exists c, x = [c] /\ hd 0 n <> 35 /\ c <> 65533 /\ forall s, reference (n ++ 59 :: s) = Some (c, s).
Proof.
  intros n x Hp Hl. unfold predefined in Hp.
  assert (Hn : forall k, utf8 n = k -> runes_of k = n).
  { intros k <-. apply runes_of_utf8. apply Forall_forall. intros c Hc. apply legal_valid. unfold legals in Hl. rewrite Forall_forall in Hl. auto. }
  destruct (str_eqb_spec (utf8 n) (s_ "lt")) as [Hk|_]; [inversion Hp; apply Hn in Hk; rewrite <- Hk; exists 60; repeat split; auto; discriminate|].
  destruct (str_eqb_spec (utf8 n) (s_ "gt")) as [Hk|_]; [inversion Hp; apply Hn in Hk; rewrite <- Hk; exists 62; repeat split; auto; discriminate|].
  destruct (str_eqb_spec (utf8 n) (s_ "amp")) as [Hk|_]; [inversion Hp; apply Hn in Hk; rewrite <- Hk; exists 38; repeat split; auto; discriminate|].
  destruct (str_eqb_spec (utf8 n) (s_ "apos")) as [Hk|_]; [inversion Hp; apply Hn in Hk; rewrite <- Hk; exists 39; repeat split; auto; discriminate|].
  destruct (str_eqb_spec (utf8 n) (s_ "quot")) as [Hk|_]; [inversion Hp; apply Hn in Hk; rewrite <- Hk; exists 34; repeat split; auto; discriminate|].
  discriminate.
Qed.
Lemma entityRef_form : forall s e s', calm s -> parseEntityRef E S H s = (Ret e, s') ->
  exists t x, inp s = 38 :: t /\ lref all t x (inp s') /\ s' = set_inp S (inp s') s /\
    e_type e = InternalPredefinedEntity /\ e_content e = [x] /\ 0 <= x < 128 /\ e_name e <> [].
Proof.
  intros s e s' Hc Hm. unfold parseEntityRef in Hm. apply bind_inv in Hm as (c & s1 & H1 & Hm). apply mpeek_form in H1 as [-> ->].
  destruct (Z.eqb_spec (peek E (inp s)) 38) as [H38|]; [|discriminate]. cbn [negb] in Hm. apply (peek_is E OK NC) in H38 as [t Ht]; [|lia].
  apply bind_inv in Hm as (u & s1 & H1 & Hm). apply madvance_form in H1. rewrite Ht, advance_1 in H1. subst s1.
  apply bind_inv in Hm as (nm & s1 & H1 & Hm). apply lift_inv in H1 as (l1 & H1 & ->). cbn [inp set_inp] in H1. apply por_else_inv in H1.
  apply (name_form E OK NC OV) in H1 as (n & z & -> & -> & Hz & Hl & _ & Hn).
  apply bind_inv in Hm as (c & s1 & H1 & Hm). apply mpeek_form in H1 as [-> ->]. cbn [inp set_inp] in Hm.
  destruct (Z.eqb_spec (peek E l1) 59) as [H59|]; [|discriminate]. cbn [negb] in Hm. apply (peek_is E OK NC) in H59 as [r ->]; [|lia].
  apply bind_inv in Hm as (u1 & s1 & H1 & Hm). apply madvance_form in H1. cbn [inp set_inp] in H1. rewrite advance_1, !set_inp_2 in H1. subst s1.
  destruct (predefined (utf8 n)) as [x|] eqn:Hp.
  - inversion Hm; subst. cbn [inp set_inp e_type e_content e_name]. destruct (predefined_names n x Hp Hl) as (c & -> & N1 & N2 & N3).
    exists (n ++ z ++ 59 :: r), c. split; [auto|]. split; [|split; [auto|split; [auto|split; [auto|]]]].
    + destruct Hz as [->| ->]; [apply lr_plain; auto; apply N3|]. cbn [app]. apply lr_nul; [apply N3|auto|exact I].
    + split; [|intros Hu; rewrite Hu in Hp; discriminate].
      unfold predefined in Hp. repeat (destruct (str_eqb _ _) in Hp; [inversion Hp; lia|]). discriminate.
  - exfalso. apply bind_inv in Hm as (a & s1 & H1 & Hm). unfold queryEntity in H1. cbn [hs set_inp the_view] in H1.
    match type of H1 with context [h_getEntity H ?h ?v ?k] => pose proof (GQ h v k (proj2 (proj2 (proj2 Hc)))) as G; destruct (h_getEntity H h v k) as [h' [x err|]] eqn:Hg end;
      [|discriminate]. cbn [snd] in G. inversion H1; subst a s1. clear H1. cbn [fst snd] in Hm.
    destruct err; [|apply (G x); reflexivity]. cbn [negb] in Hm.
    apply bind_inv in Hm as (me & s1 & H1 & Hm).
    assert (Hme : me = None).
    { destruct x; [inversion H1; auto|]. unfold getEntity in H1. cbn [inSubset set_hs set_inp] in H1. rewrite (proj1 (proj2 (proj2 Hc))) in H1. inversion H1; auto. }
    subst me. apply bind_inv in Hm as (sa & s2 & _ & Hm). apply bind_inv in Hm as (pe & s3 & _ & Hm).
    destruct ((sa =? StandaloneExplicitYes) || pe); [discriminate|]. apply bind_inv in Hm as (sub & s4 & _ & Hm). apply bind_inv in Hm as (u2 & s5 & _ & Hm). discriminate.
Qed.

(* ---- attributes ---- *)
Lemma number_local : forall base val b seen acc x t, number base val seen acc b = Some (x, t) ->
  exists w, b = w ++ t /\ number base val seen acc w = Some (x, []).
Proof.
  intros base val. induction b as [|c b IH]; intros seen acc x t Hn; [discriminate|]. cbn [number] in Hn.
  destruct (c =? 59) eqn:H59.
  - destruct seen; inversion Hn; subst. exists [c]. split; [reflexivity|]. cbn [number]. rewrite H59. reflexivity.
  - destruct (val c) eqn:Hv; [|discriminate]. apply IH in Hn as (w & -> & Hw). exists (c :: w). split; [reflexivity|].
    cbn [number]. rewrite H59, Hv. auto.
Qed.
Lemma reference_local : forall t x s, reference t = Some (x, s) -> exists w, t = w ++ s /\ reference w = Some (x, []).
Proof.
  intros t x s Hr. destruct (reference_cases t x s Hr) as [(hex & bb & Ht & Hnum & Hxc)|(nm & -> & Hp & Hnm)].
  - destruct hex; cbn [refNumber] in Hnum; apply number_local in Hnum as (w & -> & Hw).
    + change (refPrefix true) with [38; 35; 120] in Ht. cbn [app] in Ht. inversion Ht; subst. exists (35 :: 120 :: w).
      split; [reflexivity|]. cbn [reference]. rewrite Hw, Hxc. reflexivity.
    + change (refPrefix false) with [38; 35] in Ht. cbn [app] in Ht. inversion Ht; subst. exists (35 :: w).
      split; [reflexivity|]. destruct w as [|d w]; [discriminate Hw|]. assert (d <> 120) by (intros ->; discriminate Hw).
      cbn [reference]. rewrite Hw, Hxc. destruct d as [|p|p]; auto. do 7 (try (destruct p as [p|p|]; auto)). exfalso; auto.
  - exists (nm ++ [59]). rewrite <- app_assoc. split; [reflexivity|].
    cbn [In] in Hnm. destruct Hnm as [<-|[<-|[<-|[<-|[<-|[]]]]]]; cbv in Hp; inversion Hp; subst; reflexivity.
Qed.
Lemma lref_local : forall ok t x s, lref ok t x s -> exists w, t = w ++ s /\ forall y, lref ok (w ++ y) x y.
Proof.
  intros ok t x s Hr. inversion Hr; subst.
  - apply reference_local in H0 as (w & -> & Hw). exists w. split; [auto|]. intros y. apply lr_plain; [|auto]. rewrite (reference_app _ _ _ y Hw). reflexivity.
  - apply number_local in H0 as (w & -> & Hw). exists (35 :: w). split; [auto|]. intros y. cbn [app]. apply lr_dec; auto. rewrite (number_app _ _ _ _ _ y _ _ Hw). reflexivity.
  - apply number_local in H0 as (w & -> & Hw). exists (35 :: 120 :: w). split; [auto|]. intros y. cbn [app]. apply lr_hex; auto. rewrite (number_app _ _ _ _ _ y _ _ Hw). reflexivity.
  - exists (n ++ [0; 59]). split; [rewrite <- app_assoc; reflexivity|]. intros y. rewrite <- app_assoc. cbn [app]. apply lr_nul; auto.
Qed.

Lemma peek_legal : forall l, isChar (peek E l) = true -> exists c t, l = c :: t /\ legal c = true.
Proof.
  intros [|c t] Hl; [|exists c, t; split; [auto|]; rewrite legal_is; auto].
  exfalso. cbn [peek hd] in Hl. destruct (ok_eofr E OK) as [Q|Q]; rewrite Q in Hl; discriminate.
Qed.
(* where a literal ends *)
Definition stopped (q : Z) (l : list Z) : Prop := match l with [] => True | c :: _ => c = q \/ legal c = false \/ c = 60 end.
Definition amp (x : Z) : str := if x =? 38 then s_ "&#38;" else utf8 [x].
Lemma lattlit_step : forall q t x l1 lit w, lref all t x l1 -> lattlit all q lit w ->
  forall l, l1 = lit ++ l -> exists lit', 38 :: t = lit' ++ l /\ lattlit all q lit' (amp x ++ w).
Proof.
  intros q t x l1 lit w Hr Hl l ->. apply lref_local in Hr as (w1 & -> & Hr). exists (38 :: w1 ++ lit). split; [cbn [app]; rewrite app_assoc; reflexivity|].
  unfold amp. destruct (Z.eqb_spec x 38) as [->|Hx]; [eapply ll_amp|eapply ll_ref]; eauto.
Qed.
Lemma attrValueLoop_form : forall n q b sp k s v k' s', calm s -> attrValueLoop E S H n q false b sp k s = (Ret (v, k'), s') ->
  s' = set_inp S (inp s') s /\
  (inp s' = [] \/ exists lit w, inp s = lit ++ inp s' /\ lattlit all q lit w /\ v = b ++ w /\ stopped q (inp s')).
Proof.
  induction n as [|n IH]; intros q b sp k s v k' s' Hc Hm; cbn [attrValueLoop] in Hm; [discriminate|].
  apply bind_inv in Hm as (c & s1 & H1 & Hm). apply mpeek_form in H1 as [-> ->].
  destruct ((peek E (inp s) =? q) || negb (isChar (peek E (inp s))) || (peek E (inp s) =? 60)) eqn:Hstop.
  - rewrite andb_false_r in Hm. inversion Hm; subst. rewrite set_inp_self. split; [auto|]. right. exists [], []. rewrite app_nil_r.
    repeat split; [constructor|]. unfold stopped. destruct (inp s') as [|c t]; [auto|]. cbn [peek hd] in Hstop. rewrite legal_is.
    destruct (isChar c); [|auto]. destruct (Z.eqb_spec c q); [auto|]. destruct (Z.eqb_spec c 60); [auto|discriminate].
  - apply orb_false_iff in Hstop as [Hstop H60]. apply orb_false_iff in Hstop as [Hq Hch]. apply negb_false_iff in Hch.
    destruct (peek_legal _ Hch) as (c & t & Ht & Hl). rewrite Ht in *. cbn [peek hd] in *.
    assert (Hcalm : forall l, calm (set_inp S l s)) by (intros l; exact Hc).
    destruct (Z.eqb_spec c 38) as [->|H38].
    + apply bind_inv in Hm as (c2 & s1 & H1 & Hm). apply mpeekn_form in H1 as [-> ->]. rewrite Ht in Hm.
      destruct (peekn E 2 (38 :: t) =? 35).
      * apply bind_inv in Hm as (x & s1 & H1 & Hm). apply wrap_inv in H1. apply lift_inv in H1 as (l1 & H1 & ->). rewrite Ht in H1.
        apply (charref_form E OK NC OV) in H1.
        apply IH in Hm; [|apply Hcalm]. destruct Hm as [Hs Hm]. cbn [inp set_inp] in Hm. rewrite set_inp_2 in Hs. split; [auto|].
        destruct H1 as [->|(t' & Ht' & Hr)].
        { destruct Hm as [|(lit & w & Hm & _)]; [auto|left]. symmetry in Hm. apply app_eq_nil in Hm. tauto. }
        inversion Ht'; subst t'. clear Ht'. destruct Hm as [|(lit & w & Hm & Hlit & Hv & Hst)]; [auto|right].
        destruct (lattlit_step q t x l1 lit w Hr Hlit _ Hm) as (lit' & A & B). exists lit', (amp x ++ w).
        split; [auto|split; [auto|split; [|auto]]]. rewrite Hv, <- app_assoc. unfold amp. destruct (x =? 38); [reflexivity|].
        cbn [utf8 flat_map]. rewrite app_nil_r. reflexivity.
      * apply bind_inv in Hm as (e & s1 & H1 & Hm). apply wrap_inv in H1. apply entityRef_form in H1; [|auto].
        destruct H1 as (t' & x & Ht' & Hr & Hs1 & Hty & Hco & Hx & _). rewrite Ht in Ht'. inversion Ht'; subst t'. clear Ht'.
        rewrite Hs1 in Hm. apply IH in Hm; [|apply Hcalm]. destruct Hm as [Hs Hm]. cbn [inp set_inp] in Hm. rewrite set_inp_2 in Hs. split; [auto|].
        destruct Hm as [|(lit & w & Hm & Hlit & Hv & Hst)]; [auto|right].
        destruct (lattlit_step q t x _ lit w Hr Hlit _ Hm) as (lit' & A & B). exists lit', (amp x ++ w).
        split; [auto|split; [auto|split; [|auto]]]. rewrite Hv, <- app_assoc, Hty, Hco. rewrite Z.eqb_refl. unfold amp.
        cbn [str_eqb]. destruct (x =? 38); [reflexivity|]. cbn [andb utf8 flat_map]. rewrite encode_ascii by auto. reflexivity.
    + destruct ((c =? 32) || (c =? 13) || (c =? 10) || (c =? 9)) eqn:Hb; cbn [negb] in Hm; rewrite ?orb_true_r in Hm; cbn [orb andb] in Hm;
        apply bind_inv in Hm as (u & s1 & H1 & Hm); apply madvance_form in H1; rewrite Ht, advance_1 in H1; subst s1;
        (apply IH in Hm; [|apply Hcalm]); destruct Hm as [Hs Hm]; cbn [inp set_inp] in Hm; rewrite set_inp_2 in Hs; (split; [auto|]);
        (destruct Hm as [|(lit & w & Hm & Hlit & Hv & Hst)]; [auto|right]); rewrite Hv, <- app_assoc.
      * exists (c :: lit), (32 :: w). split; [rewrite Hm; reflexivity|]. split; [|split; auto]. apply ll_blank; [unfold blank; lia|right; exact I|auto].
      * exists (c :: lit), (utf8 [c] ++ w). split; [rewrite Hm; reflexivity|]. split; [|split; [|auto]].
        { apply ll_char; auto; [unfold blank; lia|lia|lia]. }
        { cbn [utf8 flat_map]. rewrite app_nil_r. reflexivity. }
Qed.
(* an open literal is followed by what no attribute or tag end begins with *)
Definition open_end (l : list Z) : Prop := match l with [] => True | c :: _ => legal c = false \/ c = 60 end.
Lemma parseAttributeValue_form : forall n s v k s', calm s -> parseAttributeValue E S H n false s = (Ret (v, k), s') ->
  s' = set_inp S (inp s') s /\
  (open_end (inp s') \/ exists w, inp s = w ++ inp s' /\ lvalue all w v).
Proof.
  intros n s v k s' Hc Hm. unfold parseAttributeValue in Hm. apply bind_inv in Hm as (q & s1 & H1 & Hm). apply mpeek_form in H1 as [-> ->].
  destruct ((peek E (inp s) =? 34) || (peek E (inp s) =? 39)) eqn:Hq.
  - assert (Hqs : exists q t, (q = 34 \/ q = 39) /\ inp s = q :: t).
    { apply orb_true_iff in Hq as [Hq|Hq]; apply Z.eqb_eq in Hq; apply (peek_is E OK NC) in Hq as [t Hq]; try lia; eauto. }
    destruct Hqs as (q & t & Hqq & Ht). rewrite Ht in Hm. cbn [peek hd] in Hm.
    apply bind_inv in Hm as (u & s1 & H1 & Hm). apply madvance_form in H1. rewrite Ht, advance_1 in H1. subst s1.
    unfold always, parseAttributeValueInternal in Hm.
    destruct (attrValueLoop E S H n q false [] false 0 (set_inp S t s)) as [[[v1 k1]|e| |] s1] eqn:Hl; inversion Hm; subst. clear Hm.
    apply attrValueLoop_form in Hl; [|exact Hc]. destruct Hl as [Hs Hl]. cbn [inp set_inp snd] in *. split; [rewrite Hs; reflexivity|].
    destruct Hl as [Hl|(lit & w & Hl & Hlit & -> & Hst)].
    + left. rewrite Hl. destruct (ok_eofr E OK) as [Q|Q]; cbn [peek hd]; rewrite Q; destruct (Z.eqb_spec 0 q); destruct (Z.eqb_spec RuneError q); try (unfold RuneError in *; lia); exact I.
    + destruct (inp s1) as [|c r]; [left|].
      { destruct (ok_eofr E OK) as [Q|Q]; cbn [peek hd]; rewrite Q; destruct (Z.eqb_spec 0 q); destruct (Z.eqb_spec RuneError q); try (unfold RuneError in *; lia); exact I. }
      cbn [peek hd]. destruct (Z.eqb_spec c q) as [->|Hcq]; [|left; cbn [stopped] in Hst; destruct Hst as [|]; [tauto|exact H0]].
      rewrite advance_1. right. exists ([q] ++ lit ++ [q]). split; [rewrite Ht, Hl; cbn [app]; rewrite <- app_assoc; reflexivity|].
      apply lv_literal; auto.
  - inversion Hm; subst. rewrite set_inp_self. split; [auto|]. right. exists []. split; [reflexivity|]. constructor. exact I.
Qed.
Lemma parseAttribute_form : forall n nm s l p v s', calm s -> parseAttribute E S H n nm s = (Ret (l, p, v), s') ->
  s' = set_inp S (inp s') s /\
  (open_end (inp s') \/ exists w p' l', inp s = w ++ inp s' /\ lattr all E w p' l' v /\ l = utf8 l' /\ p = utf8 p').
Proof.
  intros n nm s l p v s' Hc Hm. unfold parseAttribute in Hm. apply bind_inv in Hm as ([l0 p0] & s1 & H1 & Hm).
  apply lift_inv in H1 as (l1 & H1 & ->). apply pwrap_inv in H1. apply (qname_form E OK NC OV) in H1 as (q & p' & l' & Hi & Hq & -> & -> & H58).
  apply bind_inv in Hm as (sp & s1 & H1 & Hm). inversion H1; subst sp s1. clear H1. cbn [attsSpecial set_inp] in Hm. rewrite (proj1 Hc) in Hm. cbn [lookupSpecial andb] in Hm.
  apply bind_inv in Hm as (b1 & s1 & H1 & Hm). apply mskip_form in H1 as (e1 & He1 & Hb1 & Hs1 & Hh1). cbn [inp set_inp] in He1. rewrite set_inp_2 in Hs1.
  apply bind_inv in Hm as (u & s2 & H1 & Hm). apply madvance_form in H1.
  apply bind_inv in Hm as (b2 & s3 & H3 & Hm). apply mskip_form in H3 as (e2 & He2 & Hb2 & Hs3 & Hh2). rewrite H1 in He2, Hs3. cbn [inp set_inp] in He2. rewrite set_inp_2 in Hs3.
  apply bind_inv in Hm as ([v1 k1] & s4 & H4 & Hm). apply wrap_inv in H4. cbn [snd fst] in Hm.
  apply bind_inv in Hm as (v2 & s5 & H5 & Hm). inversion H5; subst v2 s5. inversion Hm; subst. clear Hm H5.
  rewrite Hs3, Hs1 in H4. cbn [set_inp] in H4. apply parseAttributeValue_form in H4; [|exact Hc]. cbn [inp set_inp] in H4. rewrite !set_inp_2 in H4.
  destruct H4 as [Hs' H4]. split; [auto|]. destruct H4 as [|(w & Hw & Hv)]; [auto|]. destruct (inp s1) as [|c t] eqn:Hi1.
  - left. unfold advance in He2. cbn [List.length Nat.leb] in He2. rewrite OV in He2. symmetry in He2. apply app_eq_nil in He2 as [_ He2].
    rewrite He2 in Hw. symmetry in Hw. apply app_eq_nil in Hw as [_ ->]. exact I.
  - right. rewrite advance_1 in He2. exists (q ++ e1 ++ [c] ++ e2 ++ w), p', l'.
    split; [rewrite Hi, He2, Hw, <- !app_assoc; reflexivity|]. split; [|auto]. econstructor; eauto. right. split; [exact I|]. split; [auto|].
    intros Hn. rewrite Hn in H58. split; intro X; apply H58; exact X.
Qed.

Lemma lname_head : forall n, lname all E n -> exists c r, n = c :: r /\ c <> 62 /\ c <> 47 /\ c <> 60 /\ legal c = true /\ blank c = false.
Proof.
  intros [|c r] ([] & Hl & _). destruct H0 as [Hs|[-> _]].
  - destruct (name_start_facts E OK c Hs) as (A1 & A2 & A3 & A4 & A5 & _). exists c, r. inversion Hl; subst. repeat split; auto.
    assert (Hp : name_part E c = true) by (unfold name_start in Hs; unfold name_part; lia). destruct (name_part_facts E OK c Hp) as (_ & _ & _ & _ & B & _). auto.
  - exists 58, r. repeat split; auto; discriminate.
Qed.
Lemma lqname_head : forall q p l, lqname all E q p l -> exists c r, q = c :: r /\ c <> 62 /\ c <> 47 /\ c <> 60 /\ legal c = true /\ blank c = false.
Proof.
  intros q p l Hq. inversion Hq as [n z Hn Hz|n z m y Hn Hz Hm Hy|n z Hn Hz Ho]; subst; apply lname_head in Hn as (c & r & -> & Hc); exists c; eexists; (split; [cbn [app]; reflexivity|auto]).
Qed.
Lemma lname_legals : forall n, lname all E n -> legals n. Proof. intros n (_ & Hl & _). auto. Qed.
Lemma lqname_legals : forall q p l, lqname all E q p l -> legals p /\ legals l.
Proof. intros q p l Hq. inversion Hq; subst; split; solve [constructor|apply lname_legals; auto]. Qed.
Lemma legals_valid : forall n, legals n -> Forall (fun c => valid_rune c = true) n.
Proof. intros n Hn. eapply Forall_impl; [|exact Hn]. intros c. apply legal_valid. Qed.
Lemma utf8_is : forall n k, legals n -> utf8 n = k -> n = runes_of k.
Proof. intros n k Hn <-. symmetry. apply runes_of_utf8. apply legals_valid. auto. Qed.
Lemma lattr_head : forall w p l v, lattr all E w p l v -> exists c r, w = c :: r /\ c <> 62 /\ c <> 47 /\ c <> 60 /\ legal c = true /\ blank c = false.
Proof. intros w p l v Hw. inversion Hw; subst. destruct (lqname_head _ _ _ H0) as (x & r & -> & Hx). exists x. eexists. split; [cbn [app]; reflexivity|auto]. Qed.
Lemma lattr_legals : forall w p l v, lattr all E w p l v -> legals p /\ legals l.
Proof. intros w p l v Hw. inversion Hw; subst. eapply lqname_legals; eauto. Qed.
Lemma blank_not : forall c, blank c = true -> c <> 62 /\ c <> 47 /\ c <> 60. Proof. intros c Hc. unfold blank in Hc. lia. Qed.
Lemma blanks_head : forall b w c r, blanks b -> w = c :: r -> c <> 62 /\ c <> 47 /\ c <> 60 -> exists c' r', b ++ w = c' :: r' /\ c' <> 62 /\ c' <> 47 /\ c' <> 60.
Proof. intros [|x b] w c r Hb -> Hc; [exists c, r; auto|]. inversion Hb; subst. exists x; eexists; split; [cbn [app]; reflexivity|]. apply blank_not; auto. Qed.
Lemma latts_head : forall tab t a d tab', latts all E tab t a d tab' ->
  (t = [] /\ a = [] /\ d = [] /\ tab' = tab) \/ exists c r, t = c :: r /\ c <> 62 /\ c <> 47 /\ c <> 60.
Proof.
  intros tab t a d tab' Ht. inversion Ht; subst;
    try (destruct (lattr_head _ _ _ _ H1) as (c1 & r1 & -> & X1 & X2 & X3 & _);
         right; match goal with H : sep _ ?b |- context [?b ++ ?w] => destruct H as [Hb _]; eapply (blanks_head b w); [exact Hb|cbn [app]; reflexivity|auto] end).
  destruct t as [|c t]; [left; auto|right]. inversion H0; subst. exists c, t. split; [auto|]. apply blank_not; auto.
Qed.
Lemma blanks_app : forall a b, blanks a -> blanks b -> blanks (a ++ b). Proof. intros. apply Forall_app. auto. Qed.
Lemma latts_blank : forall b tab t a d tab', blanks b -> latts all E tab t a d tab' -> latts all E tab (b ++ t) a d tab'.
Proof.
  intros b tab t a d tab' Hb Ht.
  assert (Hs : forall x, sep all x -> sep all (b ++ x)) by (intros x [Hx _]; split; [apply blanks_app; auto|right; exact I]).
  inversion Ht; subst; try rewrite app_assoc.
  - apply lt_end. apply blanks_app; auto.
  - apply lt_attr; auto.
  - apply lt_decl; auto.
  - apply lt_xml; auto.
  - apply lt_default; auto.
  - apply lt_listed; auto.
Qed.

Lemma attrLoop_open : forall n local attrs k s x s', open_end (inp s) -> attrLoop E S H n local attrs k s <> (Ret x, s').
Proof.
  intros [|n] local attrs k s x s' Ho Hm; cbn [attrLoop] in Hm; [discriminate|].
  apply bind_inv in Hm as (b & s1 & H1 & Hm). apply mskip_form in H1 as (w & Hw & Hb & Hs1 & Hh).
  assert (Hi : inp s1 = inp s).
  { destruct w as [|c w]; [auto|]. exfalso. rewrite Hw in Ho. cbn [app open_end] in Ho. inversion Hb; subst.
    destruct Ho as [Ho| ->]; [|discriminate]. unfold blank in *. unfold legal, xml_char in Ho. lia. }
  apply bind_inv in Hm as (c & s2 & H2 & Hm). apply mpeek_form in H2 as [-> ->]. rewrite Hi in Hm.
  assert (Hp : peek E (inp s) <> 62 /\ peek E (inp s) <> 47).
  { split; intros Hp; apply (peek_is E OK NC) in Hp as [t Hp]; try lia; rewrite Hp in Ho; destruct Ho; discriminate. }
  destruct (Z.eqb_spec (peek E (inp s)) 62); [lia|]. apply bind_inv in Hm as (c2 & s2 & H2 & Hm). apply mpeekn_form in H2 as [-> ->].
  destruct (Z.eqb_spec (peek E (inp s)) 47); [lia|]. cbn [andb] in Hm. apply bind_inv in Hm as (y & s2 & H2 & Hm). clear Hm.
  apply wrap_inv in H2. unfold parseAttribute in H2. apply bind_inv in H2 as ([l0 p0] & s3 & H3 & _).
  apply lift_inv in H3 as (l1 & H3 & _). apply pwrap_inv in H3. apply (qname_form E OK NC OV) in H3 as (q & p' & l' & Hq & Hn & _).
  destruct (lqname_head _ _ _ Hn) as (c & r & -> & X1 & X2 & X3 & X4 & X5). rewrite Hi in Hq. rewrite Hq in Ho. cbn [app open_end] in Ho.
  destruct Ho; congruence.
Qed.

Lemma lookup_is : forall tab p, lookupNS tab p = lookup (rev tab) p.
Proof.
  intros tab p. unfold lookupNS, lookup. generalize (rev tab). induction l as [|[x u] l IH]; [reflexivity|]. cbn [find fst bound].
  destruct (str_eqb x p); [reflexivity|exact IH].
Qed.
Lemma bound_existsb : forall tab p, existsb (fun x => str_eqb (fst x) p) tab = match bound (rev tab) p with Some _ => true | None => false end.
Proof.
  intros tab p. induction tab as [|[x u] tab IH]; [reflexivity|]. cbn [existsb rev fst]. rewrite bound_app, IH. cbn [bound].
  destruct (str_eqb x p); destruct (bound (rev tab) p); reflexivity.
Qed.
Lemma push_is : forall tab p u, rev (pushNS tab p u) = push (rev tab) p u.
Proof. intros tab p u. unfold pushNS, push. rewrite bound_existsb. destruct (bound (rev tab) p); [reflexivity|]. rewrite rev_app_distr. reflexivity. Qed.

(* the end of a tag: l' is left of l *)
Definition tag_end (l l' : list Z) : Prop := l = 62 :: l' \/ (l = l' /\ exists r, l' = s_ "/>" ++ r).
Lemma afterNSDecl_form : forall s b s', afterNSDecl E S s = (Ret b, s') ->
  (b = true /\ s' = s /\ (peek E (inp s) = 62 \/ has_prefix (s_ "/>") (inp s) = true)) \/
  (b = false /\ exists w, inp s = w ++ inp s' /\ blanks w /\ w <> [] /\ s' = set_inp S (inp s') s).
Proof.
  intros s b s' Hm. unfold afterNSDecl in Hm. apply bind_inv in Hm as (c & s1 & H1 & Hm). apply mpeek_form in H1 as [-> ->].
  apply bind_inv in Hm as (sl & s1 & H1 & Hm). apply mhas_form in H1 as [-> ->].
  destruct ((peek E (inp s) =? 62) || has_prefix (s_ "/>") (inp s)) eqn:He.
  - inversion Hm; subst. left. repeat split. apply orb_true_iff in He as [He|He]; [left; lia|auto].
  - destruct (isBlankCh (peek E (inp s))) eqn:Hb; cbn [negb] in Hm; [|discriminate].
    apply bind_inv in Hm as (u & s1 & H1 & Hm). apply mskip_form in H1 as (w & Hw & Hbw & Hs & Hh). inversion Hm; subst s1 b. clear Hm.
    right. split; [auto|]. exists w. repeat split; auto. intros ->. cbn [app] in Hw. rewrite <- Hw in Hh.
    destruct (inp s) as [|c t]; cbn [peek hd] in Hb.
    + destruct (ok_eofr E OK) as [Q|Q]; rewrite Q in Hb; discriminate.
    + rewrite <- blank_is in Hb. congruence.
Qed.
Lemma tag_end_now : forall tab t a d tab' l l', latts all E tab t a d tab' -> tag_end l l' ->
  peek E (t ++ l) = 62 \/ has_prefix (s_ "/>") (t ++ l) = true -> t = [] /\ a = [] /\ d = [] /\ tab' = tab.
Proof.
  intros tab t a d tab' l l' Ht Hl He. apply latts_head in Ht as [Ht|(c & r & -> & X1 & X2 & X3)]; [auto|exfalso].
  cbn [app] in He. destruct He as [He|He]; [cbn [peek hd] in He; auto|]. cbn in He. lia.
Qed.
Lemma attrLoop_form : forall n local attrs k s attrs' k' s', calm s -> attrLoop E S H n local attrs k s = (Ret (attrs', k'), s') ->
  exists t a d l, latts all E (rev (nsTab s)) t a d (rev (nsTab s')) /\ attrs' = attrs ++ a /\ k' = (k + List.length d)%nat /\
    s' = set_nsTab S (nsTab s') (set_inp S (inp s') s) /\ inp s = t ++ l /\ tag_end l (inp s').
Proof.
  induction n as [|n IH]; intros local attrs k s attrs' k' s' Hc Hm; cbn [attrLoop] in Hm; [discriminate|].
  apply bind_inv in Hm as (b & s1 & H1 & Hm). apply mskip_form in H1 as (w & Hw & Hb & Hs1 & Hh).
  assert (Hcalm : forall l tab, calm (set_nsTab S tab (set_inp S l s))) by (intros l tab; exact Hc).
  rewrite Hs1 in Hm. clear Hh. set (l1 := inp s1) in *. clearbody l1. clear Hs1 s1.
  apply bind_inv in Hm as (c & s2 & H2 & Hm). apply mpeek_form in H2 as [-> ->]. cbn [inp set_inp] in Hm.
  destruct (Z.eqb_spec (peek E l1) 62) as [H62|H62].
  { apply (peek_is E OK NC) in H62 as [r ->]; [|lia]. apply bind_inv in Hm as (u & s1 & H1 & Hm). apply madvance_form in H1.
    cbn [inp set_inp] in H1. rewrite advance_1, set_inp_2 in H1. inversion Hm; subst. exists w, [], [], (62 :: r).
    rewrite app_nil_r, Nat.add_0_r. split; [apply lt_end; auto|]. repeat split; auto. left. reflexivity. }
  apply bind_inv in Hm as (c2 & s2 & H2 & Hm). apply mpeekn_form in H2 as [-> ->]. cbn [inp set_inp] in Hm.
  destruct ((peek E l1 =? 47) && (peekn E 2 l1 =? 62)) eqn:Hsl.
  { apply andb_true_iff in Hsl as [Hs1 Hs2]. apply Z.eqb_eq in Hs1, Hs2. apply (peek_is E OK NC) in Hs1 as [r ->]; [|lia].
    assert (Hr : exists r', r = 62 :: r').
    { destruct r as [|y r]; [|exists r]. - exfalso. cbn in Hs2. destruct (ok_eofr E OK) as [Q|Q]; rewrite Q in Hs2; discriminate. - cbn in Hs2. congruence. }
    destruct Hr as (r' & ->). inversion Hm; subst. exists w, [], [], (47 :: 62 :: r').
    rewrite app_nil_r, Nat.add_0_r. split; [apply lt_end; auto|]. repeat split; auto. right. split; [reflexivity|]. exists r'. reflexivity. }
  apply bind_inv in Hm as ([[nm pr] v] & s1 & H1 & Hm). apply wrap_inv in H1. apply parseAttribute_form in H1; [|exact Hc].
  destruct H1 as [Hs1 H1]. cbn [inp set_inp] in H1. rewrite set_inp_2 in Hs1. rewrite Hs1 in Hm. set (l2 := inp s1) in *. clearbody l2. clear Hs1 s1.
  assert (Hsep : sep all w) by (split; [auto|right; exact I]).
  assert (Hcase : forall tab attrs1 k1 s2, attrLoop E S H n local attrs1 k1 (set_nsTab S tab (set_inp S l2 s)) = (Ret (attrs', k'), s2) -> ~ open_end l2).
  { intros tab attrs1 k1 s2 Hx Ho. eapply attrLoop_open; [|exact Hx]. exact Ho. }
  assert (Hafter : forall tab b s2, afterNSDecl E S (set_nsTab S tab (set_inp S l2 s)) = (Ret b, s2) -> ~ open_end l2).
  { intros tab b0 s2 Hx Ho. apply afterNSDecl_form in Hx. cbn [inp set_inp set_nsTab] in Hx. destruct Hx as [(_ & _ & [Hx|Hx])|(_ & wb & Hx & Hwb & Hne & _)].
    - apply (peek_is E OK NC) in Hx as [r ->]; [|lia]. destruct Ho; discriminate.
    - destruct l2 as [|c r]; [discriminate|]. assert (Hc47 : c = 47) by (cbn in Hx; lia). rewrite Hc47 in Ho. cbn [open_end] in Ho. destruct Ho; discriminate.
    - destruct wb as [|c wb]; [auto|]. rewrite Hx in Ho. cbn [app open_end] in Ho. inversion Hwb; subst. unfold blank in *. unfold legal, xml_char in Ho. lia. }
  (* one more attribute or declaration and what follows it *)
  destruct (str_eqb nm s_xmlns && str_eqb pr []) eqn:Hd.
  { apply andb_true_iff in Hd as [Hx Hp]. destruct (str_eqb_spec nm s_xmlns) as [->|]; [|discriminate]. destruct (str_eqb_spec pr []) as [->|]; [|discriminate]. clear Hx Hp.
    apply bind_inv in Hm as (u & s1 & H2 & Hm). inversion H2; subst u s1. clear H2.
    apply bind_inv in Hm as (cont & s1 & H2 & Hm). change (set_nsTab S _ (set_inp S l2 s)) with (set_nsTab S (pushNS (nsTab s) [] v) (set_inp S l2 s)) in H2.
    destruct H1 as [H1|(wa & p' & l' & Hl1 & Ha & Hl & Hp)]; [exfalso; eapply Hafter; eauto|]. destruct (lattr_legals _ _ _ _ Ha) as [Lp Ll].
    symmetry in Hl, Hp. apply utf8_is in Hl; [|auto]. apply utf8_is in Hp; [|auto]. change (runes_of s_xmlns) with (s_ "xmlns") in Hl. change (runes_of []) with (@nil Z) in Hp. subst p' l'.
    apply afterNSDecl_form in H2. cbn [inp set_inp set_nsTab] in H2. destruct H2 as [(-> & -> & He)|(-> & wb & Hwb & Hbb & Hne & Hs1)].
    - apply IH in Hm; [|exact Hc]. cbn [nsTab inp set_inp set_nsTab] in Hm. destruct Hm as (t & a & d & l & Ht & -> & -> & Hs' & Hl2 & Hte).
      rewrite Hl2 in He. destruct (tag_end_now _ _ _ _ _ _ _ Ht Hte He) as (-> & -> & -> & Htab). exists (w ++ wa), [], [([], v)], l2.
      rewrite app_nil_r. rewrite push_is in Htab. rewrite Htab. split; [apply lt_default; auto; right; exact I|]. split; [auto|]. split; [cbn [List.length]; lia|].
      split; [rewrite Hs'; reflexivity|]. split; [rewrite Hw, Hl1, <- app_assoc; reflexivity|]. rewrite Hl2. exact Hte.
    - rewrite Hs1 in Hm. apply IH in Hm; [|exact Hc]. cbn [nsTab inp set_inp set_nsTab] in Hm. destruct Hm as (t & a & d & l & Ht & -> & -> & Hs' & Hl2 & Hte).
      destruct wb as [|c0 wb]; [congruence|]. exists (w ++ wa ++ c0 :: wb ++ t), (AAttr s_xmlns [] v :: a), (([], v) :: d), l.
      rewrite push_is in Ht. split; [|split; [rewrite <- app_assoc; reflexivity|split; [cbn [List.length]; lia|]]].
      + apply lt_listed; auto; [right; exact I|exact I|inversion Hbb; auto|]. apply (latts_blank (c0 :: wb)); auto.
      + split; [rewrite Hs'; reflexivity|]. split; [rewrite Hw, Hl1, Hwb, Hl2; rewrite <- !app_assoc; cbn [app]; rewrite <- !app_assoc; reflexivity|auto]. }
  (* the same for the two kinds of prefixed declarations *)
  assert (Hdecl : forall tab k1 (P : list (str * str) -> list Z -> list attr -> list (str * str) -> list (str * str) -> Prop),
    bind S (afterNSDecl E S) (fun _ => attrLoop E S H n local attrs k1) (set_nsTab S tab (set_inp S l2 s)) = (Ret (attrs', k'), s') ->
    exists t a d l, latts all E (rev tab) t a d (rev (nsTab s')) /\ attrs' = attrs ++ a /\ k' = (k1 + List.length d)%nat /\
      s' = set_nsTab S (nsTab s') (set_inp S (inp s') s) /\ l2 = t ++ l /\ tag_end l (inp s') /\ spaced_off t /\ ~ open_end l2).
  { intros tab k1 P Hx. apply bind_inv in Hx as (cont & s1 & H2 & Hx). pose proof H2 as Hno. apply Hafter in Hno.
    apply afterNSDecl_form in H2. cbn [inp set_inp set_nsTab] in H2. destruct H2 as [(-> & -> & He)|(-> & wb & Hwb & Hbb & Hne & Hs1)].
    - apply IH in Hx; [|exact Hc]. cbn [nsTab inp set_inp set_nsTab] in Hx. destruct Hx as (t & a & d & l & Ht & -> & -> & Hs' & Hl2 & Hte).
      rewrite Hl2 in He. destruct (tag_end_now _ _ _ _ _ _ _ Ht Hte He) as (-> & -> & -> & Htab). exists [], [], [], l2.
      rewrite Htab. repeat split; auto; [apply lt_end; constructor|rewrite Hl2; exact Hte|left; auto].
    - rewrite Hs1 in Hx. apply IH in Hx; [|exact Hc]. cbn [nsTab inp set_inp set_nsTab] in Hx. destruct Hx as (t & a & d & l & Ht & -> & -> & Hs' & Hl2 & Hte).
      exists (wb ++ t), a, d, l. split; [apply latts_blank; auto|]. repeat split; auto; [rewrite Hwb, Hl2, app_assoc; reflexivity|].
      right. destruct wb; [congruence|]. inversion Hbb; auto. }
  destruct (str_eqb_spec pr s_xmlns) as [->|Hpr].
  - destruct (str_eqb_spec nm s_xml) as [->|Hxml].
    + destruct (str_eqb_spec v XMLNamespace) as [->|]; [|discriminate]. cbn [negb] in Hm.
      change (set_inp S l2 s) with (set_nsTab S (nsTab s) (set_inp S l2 s)) in Hm.
      apply (Hdecl _ _ (latts all E)) in Hm as (t & a & d & l & Ht & -> & -> & Hs' & Hl2 & Hte & Hsp & Hno).
      destruct H1 as [H1|(wa & p' & l' & Hl1 & Ha & Hl & Hp)]; [tauto|]. destruct (lattr_legals _ _ _ _ Ha) as [Lp Ll].
      symmetry in Hl, Hp. apply utf8_is in Hl; [|auto]. apply utf8_is in Hp; [|auto]. change (runes_of s_xmlns) with (s_ "xmlns") in Hp. change (runes_of s_xml) with (s_ "xml") in Hl. subst p' l'.
      exists (w ++ wa ++ t), a, d, l. split; [apply lt_xml; auto; exact I|]. repeat split; auto. rewrite Hw, Hl1, Hl2, <- !app_assoc. reflexivity.
    + destruct (str_eqb_spec nm s_xmlns) as [|Hxn]; [discriminate|]. destruct (str_eqb_spec v XMLNSNamespace) as [|Hv1]; [discriminate|].
      destruct (str_eqb_spec v []) as [|Hv2]; [discriminate|]. destruct (urlOk E v) eqn:Hu; [|discriminate]. cbn [negb] in Hm.
      apply bind_inv in Hm as (tab0 & s1 & H2 & Hm). inversion H2; subst tab0 s1. clear H2. cbn [nsTab set_inp] in Hm.
      destruct (str_eqb_spec (lookupNS (nsTab s) nm) []) as [Hlk|]; [|discriminate]. cbn [negb] in Hm.
      apply bind_inv in Hm as (u & s1 & H2 & Hm). inversion H2; subst u s1. clear H2. cbn [nsTab set_inp] in Hm.
      change (set_nsTab S _ _) with (set_nsTab S (pushNS (nsTab s) nm v) (set_inp S l2 s)) in Hm.
      apply (Hdecl _ _ (latts all E)) in Hm as (t & a & d & l & Ht & -> & -> & Hs' & Hl2 & Hte & Hsp & Hno).
      destruct H1 as [H1|(wa & p' & l' & Hl1 & Ha & Hl & Hp)]; [tauto|]. destruct (lattr_legals _ _ _ _ Ha) as [Lp Ll].
      symmetry in Hp. apply utf8_is in Hp; [|auto]. change (runes_of s_xmlns) with (s_ "xmlns") in Hp. subst p' nm. rewrite push_is in Ht. rewrite lookup_is in Hlk.
      exists (w ++ wa ++ t), a, ((utf8 l', v) :: d), l. split; [|repeat split; auto; [cbn [List.length]; lia|rewrite Hw, Hl1, Hl2, <- !app_assoc; reflexivity]].
      apply lt_decl; auto; intros ->; auto.
  - destruct H1 as [H1|(wa & p' & l' & Hl1 & Ha & -> & ->)].
    { exfalso. apply (Hcase (nsTab s) _ _ _ Hm H1). }
    destruct (lattr_legals _ _ _ _ Ha) as [Lp Ll]. apply IH in Hm; [|exact Hc]. cbn [nsTab inp set_inp] in Hm. destruct Hm as (t & a & d & l & Ht & -> & -> & Hs' & Hl2 & Hte).
    exists (w ++ wa ++ t), (AAttr (utf8 l') (utf8 p') v :: a), d, l. split; [|repeat split; auto; [rewrite <- app_assoc; reflexivity|rewrite Hw, Hl1, Hl2, <- !app_assoc; reflexivity]].
    apply lt_attr; auto; [|intros ->; auto]. intros [-> ->]. discriminate.
Qed.

(* ---- tags ---- *)
Lemma reported_is : forall k tab, map Some (lastn k tab) ++ repeat None (k - List.length (lastn k tab)) = reported k (rev tab).
Proof.
  intros k tab. unfold reported, lastn. rewrite firstn_rev, rev_involutive, rev_length. f_equal. f_equal. rewrite skipn_length. lia.
Qed.
Lemma utf8_nonempty : forall p, p <> [] -> utf8 p <> [].
Proof. intros [|c p] Hp; [congruence|]. intros Hu. apply utf8_nil in Hu. discriminate. Qed.
Lemma startTag_form : forall n s s', calm s -> parseStartTag E S H n s = (Ret tt, s') ->
  exists t p l u k a d e, inp s = 60 :: t ++ e /\ tag_end e (inp s') /\ legals p /\ legals l /\
    (forall ns, ltag all E ns (rev (nsTab s)) t p l u k a d (rev (nsTab s'))) /\
    nodeTab s' = (utf8 l, utf8 p, u) :: nodeTab s /\ goes s [EStartElement (utf8 l) (utf8 p) u k a] (set_nodeTab S (nodeTab s) s').
Proof.
  intros n s s' Hc Hm. unfold parseStartTag in Hm. apply bind_inv in Hm as (c & s1 & H1 & Hm). apply mpeek_form in H1 as [-> ->].
  destruct (Z.eqb_spec (peek E (inp s)) 60) as [H60|]; [|discriminate]. cbn [negb] in Hm. apply (peek_is E OK NC) in H60 as [t0 Ht0]; [|lia].
  apply bind_inv in Hm as (u0 & s1 & H1 & Hm). apply madvance_form in H1. rewrite Ht0, advance_1 in H1. subst s1.
  apply bind_inv in Hm as ([local prefix] & s1 & H1 & Hm). apply lift_inv in H1 as (l1 & H1 & ->). apply por_else_inv in H1. cbn [inp set_inp] in H1.
  apply (qname_form E OK NC OV) in H1 as (q & p & l & -> & Hq & -> & -> & _ & _). destruct (lqname_legals _ _ _ Hq) as [Lp Ll]. rewrite set_inp_2 in Hm.
  destruct (utf8 l) as [|x0 y0] eqn:Hul; [discriminate|]. rewrite <- Hul in *. assert (Hl : l <> []) by (intros ->; discriminate). clear x0 y0 Hul.
  apply bind_inv in Hm as ([attrs k] & s1 & H1 & Hm). apply attrLoop_form in H1; [|exact Hc]. destruct H1 as (t & a & d & e & Ht & -> & -> & Hs1 & Hl1 & He).
  cbn [inp set_inp nsTab app Nat.add] in *. rewrite set_inp_2 in Hs1.
  apply bind_inv in Hm as (df & s2 & H2 & Hm). inversion H2; subst df s2. clear H2.
  assert (Hdf : attsDefault s1 = []) by (rewrite Hs1; apply Hc). rewrite Hdf in Hm. unfold defaultsOf in Hm. cbn [filter map] in Hm.
  assert (Hp0 : forall k, permute E k [] = []) by (intro; apply Permutation_nil, Permutation_sym, ok_permute, OK). rewrite Hp0 in Hm. cbn [map] in Hm. rewrite app_nil_r in Hm.
  apply bind_inv in Hm as (tab & s2 & H2 & Hm). inversion H2; subst tab s2. clear H2.
  destruct (negb (str_eqb (utf8 p) []) && str_eqb (lookupNS (nsTab s1) (utf8 p)) []) eqn:Hns; [discriminate|].
  rewrite reported_is in Hm. rewrite lookup_is in *. set (u := lookup (rev (nsTab s1)) (utf8 p)) in *.
  assert (Hu : p <> [] -> u <> []).
  { intros Hp Hu. rewrite Hu in Hns. apply utf8_nonempty in Hp. destruct (str_eqb_spec (utf8 p) []); [congruence|discriminate]. }
  assert (Hc1 : calm s1) by (rewrite Hs1; exact Hc).
  apply bind_inv in Hm as (u2 & s2 & H2 & Hm). destruct u2. apply emit_form in H2; [|auto|reflexivity]. destruct H2 as (Hg & Hi2 & Hn2). inversion Hm; subst s'. clear Hm.
  cbn [inp nsTab nodeTab set_nodeTab].
  replace (if str_eqb u [] then [] else utf8 p) with (utf8 p).
  2:{ destruct (str_eqb_spec u []) as [Hz|]; [|auto]. destruct p as [|x p]; [reflexivity|]. exfalso. apply Hu; [discriminate|auto]. }
  exists (q ++ t), p, l, u, (reported (List.length d) (rev (nsTab s1))), a, d, e. rewrite Hi2, Hn2.
  split; [rewrite Ht0, Hl1, <- app_assoc; reflexivity|]. split; [auto|]. split; [auto|]. split; [auto|]. split.
  { intros ns. econstructor; eauto; right; exact I. }
  destruct Hg as (G1 & G2 & G3 & G4 & G5 & G6). assert (Hsn : nodeTab s1 = nodeTab s) by (rewrite Hs1; reflexivity). rewrite G2, Hsn. split; [auto|].
  rewrite Hs1 in G1, G4, G5, G6. repeat split; auto; apply G3.
Qed.
Lemma nodeName_form : forall p l u, legals p -> legals l -> runes_of (nodeName (utf8 l, utf8 p, u)) = qname p l.
Proof.
  intros p l u Lp Ll. assert (Hq : legals (qname p l)).
  { unfold qname. destruct p; [auto|]. apply Forall_app. split; [auto|]. constructor; [reflexivity|auto]. }
  rewrite <- (runes_of_utf8 (qname p l)) by (apply legals_valid; auto). f_equal.
  unfold nodeName, qname. destruct p as [|c p]; [reflexivity|]. rewrite !utf8_app.
  destruct (utf8 (c :: p)) as [|x y] eqn:Hx; [apply utf8_nil in Hx; discriminate|]. reflexivity.
Qed.
Lemma endTag_form : forall s p l u nd s', calm s -> nodeTab s = (utf8 l, utf8 p, u) :: nd -> legals p -> legals l -> parseEndTag E S H s = (Ret tt, s') ->
  (inp s = s_ "/>" ++ inp s' \/ inp s = s_ "</" ++ qname p l ++ s_ ">" ++ inp s') /\
  goes (set_nodeTab S nd s) [EEndElement (utf8 l) (utf8 p) u] s' /\ nsTab s' = nsTab s.
Proof.
  intros s p l u nd s' Hc Hn Lp Ll Hm. unfold parseEndTag in Hm. apply bind_inv in Hm as (empty & s1 & H1 & Hm). apply mconsume_form in H1.
  apply bind_inv in Hm as (nodes & s2 & H2 & Hm). inversion H2; subst nodes s2. clear H2.
  assert (Hn1 : nodeTab s1 = (utf8 l, utf8 p, u) :: nd) by (destruct H1 as [(_ & r & _ & ->)|(_ & -> & _)]; auto). rewrite Hn1 in Hm.
  apply bind_inv in Hm as (u1 & s2 & H2 & Hm). apply bind_inv in Hm as (u2 & s3 & H3 & Hm). inversion Hm; subst s'. clear Hm.
  assert (Hx : (inp s = s_ "/>" ++ inp s2 \/ inp s = s_ "</" ++ qname p l ++ s_ ">" ++ inp s2) /\ s2 = set_inp S (inp s2) s).
  { destruct empty.
    - inversion H2; subst. destruct H1 as [(_ & r & Hr & ->)|(Hx & _)]; [|discriminate]. cbn [inp set_inp]. split; [left; auto|auto].
    - destruct H1 as [(Hx & _)|(_ & -> & _)]; [discriminate|]. apply bind_inv in H2 as (ok1 & s4 & H4 & H2). apply mconsume_form in H4 as [(-> & r & Hr & ->)|(-> & _)]; [|discriminate].
      cbn [negb] in H2. apply bind_inv in H2 as (ok2 & s5 & H5 & H2). apply mconsume_form in H5 as [(-> & r2 & Hr2 & ->)|(-> & _)]; [|discriminate].
      cbn [negb inp set_inp] in *. rewrite set_inp_2 in H2. rewrite nodeName_form in Hr2 by auto. apply bind_inv in H2 as (c & s6 & H6 & H2). apply mpeek_form in H6 as [-> ->].
      cbn [inp set_inp] in H2. destruct (Z.eqb_spec (peek E r2) 62) as [H62|]; [|discriminate]. cbn [negb] in H2. apply (peek_is E OK NC) in H62 as [r3 ->]; [|lia].
      apply madvance_form in H2. cbn [inp set_inp] in H2. rewrite advance_1, set_inp_2 in H2. subst s2. cbn [inp set_inp]. split; [right|auto].
      rewrite Hr, Hr2. reflexivity. }
  destruct Hx as [Hx Hs2]. destruct u2. apply emit_form in H3; [|rewrite Hs2; exact Hc|reflexivity]. destruct H3 as (Hg & Hi & Hns).
  cbn [inp nsTab set_nodeTab]. rewrite Hi, Hns. split; [exact Hx|]. split; [|rewrite Hs2; reflexivity].
  destruct Hg as (G1 & G2 & G3 & G4 & G5 & G6). rewrite Hs2 in G1, G2, G4, G5, G6. cbn [nodeTab set_inp] in G2. rewrite Hn in G2.
  repeat split; auto; try apply G3. cbn [nodeTab set_nodeTab tl]. rewrite G2. reflexivity.
Qed.

(* ---- content ---- *)
Lemma blank_utf8 : forall r, legals r -> forallb isBlankCh (utf8 r) = true -> blanks r.
Proof.
  intros r Hr Hb. assert (Ha : Forall (fun c => 0 <= c < 128) (utf8 r)).
  { apply Forall_forall. intros c Hc. rewrite forallb_forall in Hb. apply Hb in Hc. unfold isBlankCh in Hc. lia. }
  assert (Hv : Forall (fun c => valid_rune c = true) (utf8 r)).
  { eapply Forall_impl; [|exact Ha]. intros c Hc. cbn beta in Hc. unfold valid_rune. lia. }
  assert (He : r = utf8 r).
  { rewrite <- (runes_of_utf8 r) at 1 by (apply legals_valid; auto). rewrite <- (utf8_ascii (utf8 r) Ha) at 1. apply runes_of_utf8. auto. }
  rewrite He. apply blanks_is. apply Forall_forall. rewrite forallb_forall in Hb. auto.
Qed.
Lemma eol_blanks : forall a b, eol a b -> blanks b -> blanks a.
Proof.
  intros a b He. induction He; intros Hb; [constructor| |].
  - inversion Hb; subst. constructor; [reflexivity|]. constructor; [reflexivity|]. apply IHHe; auto.
  - inversion Hb; subst. constructor; [auto|]. apply IHHe; auto.
Qed.
Lemma eol_legals : forall a b, eol a b -> legals a -> legals b.
Proof.
  intros a b He. induction He; intros Hb; [constructor| |].
  - inversion Hb as [|? ? _ Hb']; subst. inversion Hb' as [|? ? _ Hb'']; subst. constructor; [reflexivity|]. apply IHHe; auto.
  - inversion Hb; subst. constructor; [auto|]. apply IHHe; auto.
Qed.

Lemma parsePI_form : forall s s', calm s -> parsePI E S H s = (Ret tt, s') ->
  exists t d z, goes s [EProcessingInstruction (utf8 t) (utf8 d)] s' /\ nsTab s' = nsTab s /\ pitarget E t /\ nul all z /\
  ((inp s = s_ "<?" ++ t ++ z ++ s_ "?>" ++ inp s' /\ d = []) \/
   exists b, inp s = s_ "<?" ++ t ++ z ++ b ++ d ++ s_ "?>" ++ inp s' /\ b <> [] /\ blanks b /\ pidata d).
Proof.
  intros s s' Hc Hm. unfold parsePI in Hm. apply bind_inv in Hm as ([t d] & s1 & H1 & Hm). apply lift_inv in H1 as (l1 & H1 & ->).
  apply (pi_form E OK NC OV) in H1 as (n & z & Hn & Hz & -> & H1). cbn [fst snd] in Hm. apply emit_form in Hm; [|exact Hc|reflexivity].
  destruct Hm as (Hg & Hi & Hns). cbn [inp set_inp] in Hi. rewrite <- Hi in H1.
  destruct H1 as [[H1 ->]|(b & x & H1 & B1 & B2 & B3 & ->)]; [exists n, [], z|exists n, x, z]; (split; [exact Hg|split; [exact Hns|split; [exact Hn|split; [exact Hz|]]]]);
    [left; auto|right; exists b; auto].
Qed.
Lemma parseComment_form : forall s s', calm s -> parseComment E S H s = (Ret tt, s') ->
  exists v, goes s [EComment v] s' /\ nsTab s' = nsTab s /\
  ((exists b b', inp s = s_ "<!--" ++ b ++ s_ "-->" ++ inp s' /\ comment_text b /\ eol b b' /\ v = utf8 b') \/
   (exists b c, inp s = s_ "<!--" ++ b ++ c :: inp s' /\ open_comment b v /\ legal c = false) \/
   (exists b, inp s = s_ "<!--" ++ b /\ inp s' = [] /\ open_comment b v)).
Proof.
  intros s s' Hc Hm. unfold parseComment in Hm. apply bind_inv in Hm as (v & s1 & H1 & Hm). apply lift_inv in H1 as (l1 & H1 & ->).
  apply (scanComment_form E OK NC OV) in H1. apply emit_form in Hm; [|exact Hc|reflexivity].
  destruct Hm as (Hg & Hi & Hns). cbn [inp set_inp] in Hi. rewrite <- Hi in H1. exists v. auto.
Qed.
Lemma parseCDSect_form : forall s s', calm s -> parseCDSect E S H s = (Ret tt, s') ->
  exists b, inp s = s_ "<![CDATA[" ++ b ++ s_ "]]>" ++ inp s' /\ b <> [] /\ ~ In 0 b /\ ~ contains (s_ "]]>") b /\
    goes s [ECDataBlock (utf8 (crlf b))] s' /\ nsTab s' = nsTab s.
Proof.
  intros s s' Hc Hm. unfold parseCDSect in Hm. apply bind_inv in Hm as (ok1 & s1 & H1 & Hm).
  apply mconsume_form in H1 as [(-> & r & Hr & ->)|(-> & _)]; [|discriminate]. cbn [negb] in Hm.
  apply bind_inv in Hm as (u & s2 & H2 & Hm). apply wrap_inv in H2. unfold parseCharData in H2. apply bind_inv in H2 as (t & s3 & H3 & H2).
  apply lift_inv in H3 as (l1 & H3 & ->). cbn [inp set_inp] in H3. apply cdata_form in H3 as (b & -> & B1 & B2 & B3 & ->).
  destruct u. apply emit_form in H2; [|exact Hc|reflexivity]. destruct H2 as (Hg & Hi & Hns).
  apply bind_inv in Hm as (ok2 & s4 & H4 & Hm). apply mconsume_form in H4 as [(-> & r & Hr2 & ->)|(-> & _)]; [|discriminate]. cbn [negb] in Hm. inversion Hm; subst s'. clear Hm.
  rewrite Hi in Hr2. cbn [inp set_inp] in *. exists b. split; [rewrite Hr, Hr2; reflexivity|]. repeat split; auto; apply Hg.
Qed.
Lemma parseText_form : forall s s', calm s -> parseCharData E S H false s = (Ret tt, s') ->
  exists t t' e, inp s = t ++ inp s' /\ text_run t /\ eol t t' /\ (e = ECharacters (utf8 t') \/ (blanks t /\ e = EIgnorableWhitespace (utf8 t'))) /\
    goes s [e] s' /\ nsTab s' = nsTab s /\ match inp s' with [] => True | c :: _ => c = 60 \/ c = 38 \/ legal c = false end.
Proof.
  intros s s' Hc Hm. unfold parseCharData in Hm. apply bind_inv in Hm as (t & s1 & H1 & Hm). apply lift_inv in H1 as (l1 & H1 & ->).
  apply scanCharData_inv in H1 as (cs & Hi & Ht & -> & Hend). apply bind_inv in Hm as (b & s2 & H2 & Hm). unfold areBlanks in H2.
  inversion H2 as [[Hb Hs2]]. subst s2. clear H2. pose proof (TextProofs.eol_total cs) as He.
  assert (Hx : exists e, emit S H e (set_inp S l1 s) = (Ret tt, s') /\ dtd_event e = false /\
    (e = ECharacters (utf8 (crlf cs)) \/ (blanks cs /\ e = EIgnorableWhitespace (utf8 (crlf cs))))).
  { destruct b; eexists; (split; [exact Hm|split; [reflexivity|]]); [right|left; auto]. split; [|auto].
    destruct (forallb isBlankCh (utf8 (crlf cs))) eqn:Hf; [|discriminate]. eapply eol_blanks; [exact He|]. apply blank_utf8; [|auto].
    eapply eol_legals; [exact He|]. apply Ht. }
  destruct Hx as (e & Hem & Hd & Hee). apply emit_form in Hem; [|exact Hc|auto]. destruct Hem as (Hg & Hi' & Hns). cbn [inp set_inp] in Hi'.
  rewrite <- Hi' in Hi, Hend. exists cs, (crlf cs), e. repeat split; auto; try apply Ht; apply Hg.
Qed.
Lemma parseReference_form : forall K s s', calm s -> parseReference E S H K s = (Ret tt, s') ->
  exists x, goes s [ECharacters (utf8 [x])] s' /\ nsTab s' = nsTab s /\ (inp s' = [] \/ exists t, inp s = 38 :: t /\ lref all t x (inp s')).
Proof.
  intros K s s' Hc Hm. unfold parseReference in Hm. apply bind_inv in Hm as (c & s1 & H1 & Hm). apply mpeek_form in H1 as [-> ->].
  destruct (Z.eqb_spec (peek E (inp s)) 38) as [H38|]; [|discriminate]. cbn [negb] in Hm. apply (peek_is E OK NC) in H38 as [t Ht]; [|lia].
  apply bind_inv in Hm as (c2 & s1 & H1 & Hm). apply mpeekn_form in H1 as [-> ->].
  destruct (peekn E 2 (inp s) =? 35).
  - apply bind_inv in Hm as (x & s1 & H1 & Hm). apply wrap_inv in H1. apply lift_inv in H1 as (l1 & H1 & ->).
    apply (charref_form E OK NC OV) in H1. apply emit_form in Hm; [|exact Hc|reflexivity]. destruct Hm as (Hg & Hi & Hns). cbn [inp set_inp] in Hi. rewrite <- Hi in H1.
    exists x. cbn [utf8 flat_map]. rewrite app_nil_r. auto.
  - apply bind_inv in Hm as (e & s1 & H1 & Hm). apply wrap_inv in H1. apply entityRef_form in H1; [|auto].
    destruct H1 as (t' & x & Ht' & Hr & Hs1 & Hty & Hco & Hx & _). rewrite Hty, Z.eqb_refl, orb_true_r, Hco in Hm. cbn [str_eqb] in Hm.
    apply emit_form in Hm; [|rewrite Hs1; exact Hc|reflexivity]. destruct Hm as (Hg & Hi & Hns). rewrite <- Hi in Hr. rewrite Hs1 in Hg, Hns.
    exists x. cbn [utf8 flat_map]. rewrite encode_ascii by auto. split; [exact Hg|]. split; [exact Hns|]. right. eauto.
Qed.

Lemma content_illegal : forall n s c t s', inp s = c :: t -> legal c = false -> parseContent E S H n s <> (Ret tt, s').
Proof.
  intros [|n] s c t s' Hi Hl Hm; cbn [parseContent] in Hm; [discriminate|]. apply bind_inv in Hm as (d & s1 & H1 & Hm).
  inversion H1; subst d s1. clear H1. rewrite Hi in Hm. cbn [done] in Hm. cbv zeta in Hm. rewrite Hi in Hm.
  assert (H60 : c <> 60) by (intros ->; discriminate). assert (H38 : c <> 38) by (intros ->; discriminate).
  assert (Hp : forall p x, hd 0 p = x -> c <> x -> p <> [] -> has_prefix p (c :: t) = false).
  { intros [|y p] x Hx Hcx Hpn; [congruence|]. cbn [hd] in Hx. subst y. cbn [has_prefix]. destruct (Z.eqb_spec x c); [congruence|reflexivity]. }
  rewrite (Hp (s_ "</") 60), (Hp (s_ "<?") 60), (Hp (s_ "<![CDATA[") 60), (Hp (s_ "<!--") 60), (Hp (s_ "<") 60), (Hp (s_ "&") 38) in Hm by (auto; discriminate).
  apply bind_inv in Hm as (u & s1 & H1 & _). unfold parseCharData in H1. apply bind_inv in H1 as (x & s2 & H2 & _). apply lift_inv in H2 as (l & H2 & _).
  rewrite Hi in H2. pose proof (chardata_illegal E c t Hl) as Hf. rewrite H2 in Hf. discriminate.
Qed.

Lemma endTag_nonempty : forall s u s', parseEndTag E S H s = (Ret u, s') -> inp s <> [].
Proof.
  intros s u s' Hm Hi. unfold parseEndTag in Hm. apply bind_inv in Hm as (empty & s1 & H1 & Hm). apply mconsume_form in H1.
  rewrite Hi in H1. destruct H1 as [(_ & r & Hr & _)|(-> & -> & _)]; [discriminate|].
  apply bind_inv in Hm as (nodes & s2 & H2 & Hm). inversion H2; subst nodes s2. clear H2.
  apply bind_inv in Hm as (u1 & s2 & H2 & Hm). apply bind_inv in H2 as (ok1 & s4 & H4 & H2). apply mconsume_form in H4.
  rewrite Hi in H4. destruct H4 as [(_ & r & Hr & _)|(-> & -> & _)]; discriminate.
Qed.
Definition content_inv (K : M S unit) : Prop := forall s s', calm s -> K s = (Ret tt, s') -> inp s' <> [] ->
  exists src evs d, inp s = src ++ inp s' /\ (exists r, inp s' = s_ "</" ++ r) /\
    (forall ns, lcontent all E ns (rev (nsTab s)) src evs d (rev (nsTab s'))) /\ goes s evs s'.
Lemma element_form : forall n K, content_inv K -> forall s s', calm s -> parseElement E S H n K s = (Ret tt, s') ->
  exists src evs d, inp s = src ++ inp s' /\ (forall ns, lelement all E ns (rev (nsTab s)) src evs d (rev (nsTab s'))) /\ goes s evs s'.
Proof.
  intros n K HK s s' Hc Hm. unfold parseElement in Hm. apply bind_inv in Hm as (u1 & s1 & H1 & Hm). apply wrap_inv in H1. destruct u1.
  apply startTag_form in H1; [|auto]. destruct H1 as (t & p & l & u & k & a & d & e & Hi & He & Lp & Ll & Ht & Hnt & Hg).
  apply bind_inv in Hm as (em & s2 & H2 & Hm). apply mhas_form in H2 as [-> ->].
  apply bind_inv in Hm as (u2 & s2 & H2 & Hm). destruct u2. apply wrap_inv in Hm.
  assert (Hc1 : calm s1) by (destruct Hg as (_ & _ & G & _); exact G).
  destruct (has_prefix (s_ "/>") (inp s1)) eqn:Hp.
  - inversion H2; subst s2. clear H2. apply endTag_form with (p := p) (l := l) (u := u) (nd := nodeTab s) in Hm; auto.
    destruct Hm as (Hx & Hg2 & Hns). destruct Hx as [Hx|Hx]; [|rewrite Hx in Hp; discriminate].
    pose proof (goes_trans _ _ _ _ _ Hg Hg2) as Hgg. cbn [app] in Hgg. rewrite Hns. destruct He as [->|[-> _]].
    + exists (s_ "<" ++ t ++ s_ ">" ++ s_ "/>"). eexists. exists d. split; [rewrite Hi, Hx; change (s_ "<") with [60]; change (s_ ">") with [62]; cbn [app]; rewrite <- !app_assoc; reflexivity|].
      split; [|exact Hgg]. intros ns. apply le_slash; [apply Ht|exact I].
    + exists (s_ "<" ++ t ++ s_ "/>"). eexists. exists d. split; [rewrite Hi, Hx; change (s_ "<") with [60]; cbn [app]; rewrite <- !app_assoc; reflexivity|].
      split; [|exact Hgg]. intros ns. apply le_empty; apply Ht.
  - destruct He as [->|(-> & r & Hr)]; [|rewrite Hr in Hp; discriminate]. apply wrap_inv in H2.
    pose proof (endTag_nonempty _ _ _ Hm) as Hne. destruct (HK _ _ Hc1 H2 Hne) as (src & evs & d1 & Hi1 & (r & Hr) & Hcont & Hg1).
    assert (Hn2 : nodeTab s2 = (utf8 l, utf8 p, u) :: nodeTab s) by (destruct Hg1 as (_ & G & _); congruence).
    apply endTag_form with (p := p) (l := l) (u := u) (nd := nodeTab s) in Hm; auto; [|apply Hg1].
    destruct Hm as (Hx & Hg2 & Hns). destruct Hx as [Hx|Hx]; [rewrite Hr in Hx; discriminate|].
    exists (s_ "<" ++ t ++ s_ ">" ++ src ++ s_ "</" ++ qname p l ++ s_ ">"). eexists. exists (d ++ d1). split; [|split].
    + rewrite Hi, Hi1, Hx. change (s_ "<") with [60]. change (s_ ">") with [62]. cbn [app]. rewrite <- !app_assoc. cbn [app]. rewrite <- !app_assoc. reflexivity.
    + intros ns. rewrite Hns. eapply le_full; [apply Ht|apply Hcont|]. intros y ->. rewrite Hi1 in Hp. discriminate.
    + eapply goes_trans; [exact Hg|]. eapply goes_trans; [|exact Hg2]. destruct Hg1 as (G1 & G2 & G3 & G4 & G5 & G6). repeat split; auto; apply G3.
Qed.
Lemma content_form : forall n, content_inv (parseContent E S H n).
Proof.
  induction n as [|n IH]; intros s s' Hc Hm Hne; cbn [parseContent] in Hm; [discriminate|]. apply bind_inv in Hm as (d & s1 & H1 & Hm).
  inversion H1; subst d s1. clear H1. destruct (inp s) as [|c0 t0] eqn:Hi0; cbn [done] in Hm; [inversion Hm; subst; congruence|].
  cbv zeta in Hm. rewrite <- Hi0 in *. clear c0 t0 Hi0.
  destruct (has_prefix (s_ "</") (inp s)) eqn:P1.
  { inversion Hm; subst. exists [], [], []. split; [reflexivity|]. split; [apply has_prefix_true; auto|]. split; [intros; apply lc_nil|apply goes_refl; auto]. }
  destruct (has_prefix (s_ "<?") (inp s)) eqn:P2.
  { apply bind_inv in Hm as ([] & s1 & H1 & Hm). apply wrap_inv in H1. apply parsePI_form in H1; [|auto]. destruct H1 as (t & x & z & Hg & Hns & Ht & Hz & Hx).
    destruct (IH _ _ (goes_calm _ _ _ Hg) Hm Hne) as (src & evs & d & Hi & Hr & Hcont & Hg2). rewrite Hns in Hcont.
    destruct Hx as [[Hx ->]|(b & Hx & B1 & B2 & B3)].
    - exists (s_ "<?" ++ t ++ z ++ s_ "?>" ++ src). eexists. exists d. split; [rewrite Hx, Hi, <- !app_assoc; reflexivity|]. split; [auto|].
      split; [|exact (goes_trans _ _ _ _ _ Hg Hg2)]. intros ns. apply lc_pi0; auto.
    - exists (s_ "<?" ++ t ++ z ++ b ++ x ++ s_ "?>" ++ src). eexists. exists d. split; [rewrite Hx, Hi, <- !app_assoc; reflexivity|]. split; [auto|].
      split; [|exact (goes_trans _ _ _ _ _ Hg Hg2)]. intros ns. apply lc_pi; auto. }
  destruct (has_prefix (s_ "<![CDATA[") (inp s)) eqn:P3.
  { apply bind_inv in Hm as ([] & s1 & H1 & Hm). apply wrap_inv in H1. apply parseCDSect_form in H1; [|auto]. destruct H1 as (b & Hx & B1 & B2 & B3 & Hg & Hns).
    destruct (IH _ _ (goes_calm _ _ _ Hg) Hm Hne) as (src & evs & d & Hi & Hr & Hcont & Hg2). rewrite Hns in Hcont.
    exists (s_ "<![CDATA[" ++ b ++ s_ "]]>" ++ src). eexists. exists d. split; [rewrite Hx, Hi, <- !app_assoc; reflexivity|]. split; [auto|].
    split; [|exact (goes_trans _ _ _ _ _ Hg Hg2)]. intros ns. apply lc_cdata; auto; [right; exact I|apply TextProofs.eol_total]. }
  destruct (has_prefix (s_ "<!--") (inp s)) eqn:P4.
  { apply bind_inv in Hm as ([] & s1 & H1 & Hm). apply wrap_inv in H1. apply parseComment_form in H1; [|auto]. destruct H1 as (v & Hg & Hns & Hx).
    destruct (IH _ _ (goes_calm _ _ _ Hg) Hm Hne) as (src & evs & d & Hi & Hr & Hcont & Hg2). rewrite Hns in Hcont.
    destruct Hx as [(b & b' & Hx & B1 & B2 & ->)|[(b & c & Hx & B1 & B2)|(b & _ & Hx & _)]].
    - exists (s_ "<!--" ++ b ++ s_ "-->" ++ src). eexists. exists d. split; [rewrite Hx, Hi, <- !app_assoc; reflexivity|]. split; [auto|].
      split; [|exact (goes_trans _ _ _ _ _ Hg Hg2)]. intros ns. apply lc_comment; auto.
    - exists (s_ "<!--" ++ b ++ c :: src). eexists. exists d. split; [rewrite Hx, Hi, <- !app_assoc; reflexivity|]. split; [auto|].
      split; [|exact (goes_trans _ _ _ _ _ Hg Hg2)]. intros ns. apply lc_open; auto. exact I.
    - exfalso. rewrite Hx in Hi. symmetry in Hi. apply app_eq_nil in Hi. tauto. }
  destruct (has_prefix (s_ "<") (inp s)) eqn:P5.
  { apply bind_inv in Hm as ([] & s1 & H1 & Hm). apply wrap_inv in H1. apply element_form in H1; [|exact IH|auto]. destruct H1 as (x & evs1 & d1 & Hx & Hel & Hg).
    destruct (IH _ _ (goes_calm _ _ _ Hg) Hm Hne) as (src & evs & d & Hi & Hr & Hcont & Hg2).
    exists (x ++ src). eexists. exists (d1 ++ d). split; [rewrite Hx, Hi, <- !app_assoc; reflexivity|]. split; [auto|].
    split; [|exact (goes_trans _ _ _ _ _ Hg Hg2)]. intros ns. eapply lc_elem; [apply Hel|apply Hcont]. }
  destruct (has_prefix (s_ "&") (inp s)) eqn:P6.
  { apply bind_inv in Hm as ([] & s1 & H1 & Hm). apply wrap_inv in H1. apply parseReference_form in H1; [|auto]. destruct H1 as (x & Hg & Hns & Hx).
    destruct (IH _ _ (goes_calm _ _ _ Hg) Hm Hne) as (src & evs & d & Hi & Hr & Hcont & Hg2). rewrite Hns in Hcont.
    destruct Hx as [Hx|(t & Ht & Hx)]; [exfalso; rewrite Hx in Hi; symmetry in Hi; apply app_eq_nil in Hi; tauto|].
    apply lref_local in Hx as (w & -> & Hw). exists (38 :: w ++ src). eexists. exists d. split; [rewrite Ht, Hi; cbn [app]; rewrite <- !app_assoc; reflexivity|]. split; [auto|].
    split; [|exact (goes_trans _ _ _ _ _ Hg Hg2)]. intros ns. eapply lc_ref; [apply Hw|apply Hcont]. }
  apply bind_inv in Hm as ([] & s1 & H1 & Hm). apply parseText_form in H1; [|auto]. destruct H1 as (t & t' & e & Hx & Ht & Heol & He & Hg & Hns & Hend).
  pose proof Hm as Hm0. destruct (IH _ _ (goes_calm _ _ _ Hg) Hm Hne) as (src & evs & d & Hi & Hr & Hcont & Hg2). rewrite Hns in Hcont.
  exists (t ++ src). eexists. exists d. split; [rewrite Hx, Hi, <- !app_assoc; reflexivity|]. split; [auto|].
  split; [|exact (goes_trans _ _ _ _ _ Hg Hg2)]. intros ns. apply lc_text with (t' := t'); auto.
  unfold starts_markup. destruct src as [|c src]; [auto|right]. cbn [app hd] in *. rewrite Hi in Hend. destruct Hend as [|[|Hend]]; auto.
  exfalso. eapply content_illegal; eauto.
Qed.

(* ---- around the root element ---- *)
Lemma misc_form : forall n s s', calm s -> parseMisc E S H n s = (Ret tt, s') ->
  exists m z e1 e2, inp s = m ++ z ++ inp s' /\ lmisc all E m e1 /\ llast all z e2 /\ (z <> [] -> inp s' = []) /\ goes s (e1 ++ e2) s' /\ nsTab s' = nsTab s.
Proof.
  induction n as [|n IH]; intros s s' Hc Hm; cbn [parseMisc] in Hm; [discriminate|]. apply bind_inv in Hm as (d & s1 & H1 & Hm).
  inversion H1; subst d s1. clear H1.
  assert (Hnil : s' = s -> exists m z e1 e2, inp s = m ++ z ++ inp s' /\ lmisc all E m e1 /\ llast all z e2 /\ (z <> [] -> inp s' = []) /\ goes s (e1 ++ e2) s' /\ nsTab s' = nsTab s).
  { intros ->. exists [], [], [], []. split; [reflexivity|]. split; [apply lm_nil|]. split; [apply ll_closed|]. split; [congruence|]. split; [apply goes_refl; auto|auto]. }
  destruct (inp s) as [|c0 t0] eqn:Hi0; cbn [done] in Hm; [apply Hnil; inversion Hm; auto|].
  cbv zeta in Hm. rewrite <- Hi0 in *.
  destruct (has_prefix (s_ "<?") (inp s)) eqn:P2.
  { apply bind_inv in Hm as ([] & s1 & H1 & Hm). apply wrap_inv in H1. apply parsePI_form in H1; [|auto]. destruct H1 as (t & x & z & Hg & Hns & Ht & Hz & Hx).
    apply IH in Hm; [|eapply goes_calm; eauto]. destruct Hm as (m & y & e1 & e2 & Hi & Hmi & Hla & Hend & Hg2 & Hns2).
    destruct Hx as [[Hx ->]|(b & Hx & B1 & B2 & B3)].
    - exists (s_ "<?" ++ t ++ z ++ s_ "?>" ++ m), y, (EProcessingInstruction (utf8 t) [] :: e1), e2. split; [rewrite Hx, Hi, <- !app_assoc; reflexivity|].
      split; [apply lm_pi0; auto|]. split; [auto|]. split; [auto|]. split; [exact (goes_trans _ _ _ _ _ Hg Hg2)|congruence].
    - exists (s_ "<?" ++ t ++ z ++ b ++ x ++ s_ "?>" ++ m), y, (EProcessingInstruction (utf8 t) (utf8 x) :: e1), e2. split; [rewrite Hx, Hi, <- !app_assoc; reflexivity|].
      split; [apply lm_pi; auto|]. split; [auto|]. split; [auto|]. split; [exact (goes_trans _ _ _ _ _ Hg Hg2)|congruence]. }
  destruct (has_prefix (s_ "<!--") (inp s)) eqn:P4.
  { apply bind_inv in Hm as ([] & s1 & H1 & Hm). apply wrap_inv in H1. apply parseComment_form in H1; [|auto]. destruct H1 as (v & Hg & Hns & Hx).
    apply IH in Hm; [|eapply goes_calm; eauto]. destruct Hm as (m & y & e1 & e2 & Hi & Hmi & Hla & Hend & Hg2 & Hns2).
    destruct Hx as [(b & b' & Hx & B1 & B2 & ->)|[(b & c & Hx & B1 & B2)|(b & Hb & Hx & B1)]].
    - exists (s_ "<!--" ++ b ++ s_ "-->" ++ m), y, (EComment (utf8 b') :: e1), e2. split; [rewrite Hx, Hi, <- !app_assoc; reflexivity|].
      split; [apply lm_comment; auto|]. split; [auto|]. split; [auto|]. split; [exact (goes_trans _ _ _ _ _ Hg Hg2)|congruence].
    - exists (s_ "<!--" ++ b ++ c :: m), y, (EComment v :: e1), e2. split; [rewrite Hx, Hi, <- !app_assoc; reflexivity|].
      split; [apply lm_open; auto; exact I|]. split; [auto|]. split; [auto|]. split; [exact (goes_trans _ _ _ _ _ Hg Hg2)|congruence].
    - rewrite Hx in Hi. symmetry in Hi. apply app_eq_nil in Hi as [-> Hi]. apply app_eq_nil in Hi as [-> Hi].
      assert (e1 = []) by (inversion Hmi; auto). assert (e2 = []) by (inversion Hla; auto). subst e1 e2.
      exists [], (s_ "<!--" ++ b), [], [EComment v]. split; [rewrite Hb, Hi, app_nil_r; reflexivity|].
      split; [constructor|]. split; [constructor; [auto|exact I]|]. split; [auto|]. split; [exact (goes_trans _ _ _ _ _ Hg Hg2)|congruence]. }
  destruct (isBlankCh (peek E (inp s))) eqn:P5; [|apply Hnil; inversion Hm; auto].
  apply bind_inv in Hm as (u & s1 & H1 & Hm). apply mskip_form in H1 as (w & Hw & Hb & Hs1 & _).
  apply IH in Hm; [|rewrite Hs1; exact Hc]. destruct Hm as (m & y & e1 & e2 & Hi & Hmi & Hla & Hend & Hg2 & Hns2).
  exists (w ++ m), y, e1, e2. split; [rewrite Hw, Hi, app_assoc; reflexivity|]. split.
  - clear - Hb Hmi. induction w as [|c w IHw]; [auto|]. inversion Hb; subst. apply lm_blank; auto.
  - split; [auto|]. split; [auto|]. split; [|rewrite Hns2, Hs1; reflexivity]. rewrite Hs1 in Hg2. exact Hg2.
Qed.
End S.
