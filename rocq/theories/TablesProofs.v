From Verif Require Import Base Tables.

Lemma ElementType_named i s : In (i, s) ElementType_consts -> ElementType_String i = Ret (s_ s).
Proof.
  intros H. cbn [ElementType_consts In] in H.
  repeat (destruct H as [H|H]; [injection H as <- <-; vm_compute; reflexivity|]). destruct H.
Qed.

Lemma ElementType_other i :
  ~ (1 <= i <= 21) -> ElementType_String i = Ret (s_ "ElementType(" ++ fmt_d i ++ s_ ")").
Proof.
  intros H. unfold ElementType_String. change (Z.of_nat (List.length ElementType_index)) with 22.
  destruct (_ || _) eqn:E; [|lia]. replace (i - 1 + 1) with i by lia. reflexivity.
Qed.

Lemma consts_range i : 1 <= i <= 21 -> exists s, In (i, s) ElementType_consts.
Proof.
  intros H.
  assert (K : i = 1 \/ i = 2 \/ i = 3 \/ i = 4 \/ i = 5 \/ i = 6 \/ i = 7 \/ i = 8 \/ i = 9 \/ i = 10 \/ i = 11
    \/ i = 12 \/ i = 13 \/ i = 14 \/ i = 15 \/ i = 16 \/ i = 17 \/ i = 18 \/ i = 19 \/ i = 20 \/ i = 21) by lia.
  cbn [ElementType_consts In].
  repeat (destruct K as [->|K]; [eexists; eauto 30|]). subst. eexists. eauto 30.
Qed.

Lemma parserState_named i s : In (i, s) parserState_consts -> parserState_String i = Ret (s_ s).
Proof.
  intros H. cbn [parserState_consts In] in H.
  repeat (destruct H as [H|H]; [injection H as <- <-; vm_compute; reflexivity|]). destruct H.
Qed.

Lemma parserState_other i :
  ~ (-1 <= i <= 16) -> parserState_String i = Ret (s_ "parserState(" ++ fmt_d i ++ s_ ")").
Proof.
  intros H. unfold parserState_String. change (Z.of_nat (List.length parserState_index)) with 19.
  destruct (_ || _) eqn:E; [|lia]. replace (i - -1 + -1) with i by lia. reflexivity.
Qed.

Lemma ElementType_never_fails i : exists s, ElementType_String i = Ret s.
Proof.
  destruct (Z_le_dec 1 i) as [H1|H1]; [destruct (Z_le_dec i 21) as [H2|H2]|].
  - destruct (consts_range i (conj H1 H2)) as [s Hs]. exists (s_ s). apply ElementType_named. exact Hs.
  - eexists. apply ElementType_other. lia.
  - eexists. apply ElementType_other. lia.
Qed.

Lemma ElementType_inj i j s :
  1 <= i <= 21 -> ElementType_String i = Ret s -> ElementType_String j = Ret s -> i = j.
Proof.
  intros Hi Hs Hj.
  destruct (consts_range i Hi) as [x Hx]. rewrite (ElementType_named _ _ Hx) in Hs. injection Hs as <-.
  destruct (Z_le_dec 1 j) as [H1|H1]; [destruct (Z_le_dec j 21) as [H2|H2]|].
  - destruct (consts_range j (conj H1 H2)) as [y Hy]. rewrite (ElementType_named _ _ Hy) in Hj.
    injection Hj as Hj.
    assert (forallb (fun a => forallb (fun b => if str_eqb (s_ (snd a)) (s_ (snd b)) then fst a =? fst b else true) ElementType_consts) ElementType_consts = true) by (vm_compute; reflexivity).
    rewrite forallb_forall in H. specialize (H _ Hx). rewrite forallb_forall in H. specialize (H _ Hy).
    cbn [fst snd] in H. rewrite <- Hj, str_eqb_refl in H. apply Z.eqb_eq in H. exact H.
  - rewrite ElementType_other in Hj by lia. exfalso.
    assert (K : forallb (fun a => negb (has_prefix (s_ "ElementType(") (s_ (snd a)))) ElementType_consts = true) by (vm_compute; reflexivity).
    rewrite forallb_forall in K. specialize (K _ Hx). cbn [snd] in K. assert (Hj2 : s_ x = s_ "ElementType(" ++ fmt_d j ++ s_ ")") by congruence. rewrite Hj2, has_prefix_app in K. discriminate.
  - rewrite ElementType_other in Hj by lia. exfalso.
    assert (K : forallb (fun a => negb (has_prefix (s_ "ElementType(") (s_ (snd a)))) ElementType_consts = true) by (vm_compute; reflexivity).
    rewrite forallb_forall in K. specialize (K _ Hx). cbn [snd] in K. assert (Hj2 : s_ x = s_ "ElementType(" ++ fmt_d j ++ s_ ")") by congruence. rewrite Hj2, has_prefix_app in K. discriminate.
Qed.
