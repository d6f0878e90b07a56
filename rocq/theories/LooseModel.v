(* Whatever is accepted as the declaration of an element, a type of an attribute
   or a value of an entity is in the grammar of LooseDtd.v. *)
From Verif Require Import Base Utf8 Utf8Proofs Encoding XmlSpec EscapeProofs Scan ScanProofs LexProofs Parser TextProofs Complete Local Loose LooseLex Content ContentProofs Doctype DoctypeSubset TermDtd Grammar LooseDtd.
From Coq Require Import ZifyBool.
Local Open Scope Z_scope.

Section S.
Variable E : env.
Hypothesis OK : env_ok E.
Hypothesis NC : forall c, isLetter E c || isDigit E c = true -> xml_char c = true.
Hypothesis OV : forall n l, over E n l = [].

Lemma xname_form : forall l v l', parseName E l = (Ret v, l') -> exists n z, l = n ++ z ++ l' /\ v = utf8 n /\ drop z /\ xname E n.
Proof.
  intros l v l' Hp. apply (name_form E OK NC OV) in Hp as (n & z & -> & -> & Hz & Hl & Hn & Hx). exists n, z. split; [auto|]. split; [auto|]. split; [auto|].
  split; [|auto]. destruct n as [|c r]; [auto|]. destruct Hx as [H1 H2]. split.
  - destruct (start_is E NC c H1) as [|[? _]]; auto.
  - eapply Forall_impl; [|exact H2]. intros x Hr. cbv beta in Hr. rewrite (nameRest_class E OK) in Hr. unfold name_part. lia.
Qed.
Lemma skip_form : forall l b l', skipBlanks l = (Ret b, l') -> exists w, l = w ++ l' /\ blanks w /\ (b = true -> w <> []) /\ match l' with [] => True | c :: _ => blank c = false end.
Proof.
  intros l b l' Hs. unfold skipBlanks in Hs. inversion Hs; subst. exists (takeW isBlankCh l). split; [symmetry; apply takeW_dropW|]. split; [apply blanks_is, takeW_all|]. split.
  - intros Hb Hn. rewrite Hn in Hb. discriminate.
  - pose proof (dropW_head isBlankCh l) as Hh. destruct (dropW isBlankCh l); [auto|]. rewrite blank_is. auto.
Qed.
Lemma peek_blank : forall l, isBlankCh (peek E l) = true -> exists c t, l = c :: t /\ blank c = true.
Proof.
  intros [|c t] Hb; cbn [peek hd] in Hb; [|exists c, t; split; [auto|rewrite blank_is; auto]].
  destruct (ok_eofr E OK) as [Q|Q]; rewrite Q in Hb; discriminate.
Qed.
Lemma skip_blank : forall l b l', isBlankCh (peek E l) = true -> skipBlanks l = (Ret b, l') -> exists w, l = w ++ l' /\ blanks w /\ w <> [] /\ match l' with [] => True | c :: _ => blank c = false end.
Proof.
  intros l b l' Hb Hs. apply skip_form in Hs as (w & -> & Hw & _ & Hl). exists w. split; [auto|]. split; [auto|]. split; [|auto]. intros ->.
  apply peek_blank in Hb as (c & t & Hc & Hb). cbn [app] in Hc. subst l'. congruence.
Qed.

(* ---- content models ---- *)
Lemma occurrence_form : forall e l e' l', occurrence E e l = (Ret e', l') -> exists o, l = sign o ++ l'.
Proof.
  intros e l e' l' Ho. unfold occurrence in Ho. apply pbind_inv in Ho as (c & l1 & H1 & Ho). inversion H1; subst c l1. clear H1.
  repeat match type of Ho with context [if ?x =? ?y then _ else _] => destruct (Z.eqb_spec x y) as [Hq|_]; [apply (peek_is E OK NC) in Hq as [t ->]; [|lia]|] end;
    try (apply pbind_inv in Ho as (u & l1 & H1 & Ho); unfold padvance in H1; rewrite advance_1 in H1; inversion H1; subst l1; inversion Ho; subst).
  - exists Opt. reflexivity.
  - exists Mult. reflexivity.
  - exists Plus. reflexivity.
  - inversion Ho; subst. exists Once. reflexivity.
Qed.
Lemma leaf_form : forall l e l', nameLeaf E l = (Ret e, l') -> exists n o t, l = t ++ l' /\ forall d, ctext E d (Name [] n o) t.
Proof.
  intros l e l' Hl. unfold nameLeaf in Hl. apply pbind_inv in Hl as (v & l1 & H1 & Hl). apply pwrap_inv, xname_form in H1 as (n & z & -> & -> & Hz & Hn).
  apply pbind_inv in Hl as (x & l2 & H2 & Hl). apply pwrap_inv in H2. unfold plift in H2. inversion H2; subst l2. apply occurrence_form in Hl as (o & ->).
  exists n, o, (n ++ z ++ sign o). split; [rewrite <- !app_assoc; reflexivity|]. intros d. constructor; auto.
Qed.
Definition closes (l l' : list Z) : Prop := exists o, (o = Once \/ o = Opt) /\ l = [41] ++ sign o ++ l'.
Lemma closeGroup_form : forall r l m l', closeGroup E r l = (Ret m, l') -> (l = [] -> l' = []) /\ (forall t, l = 41 :: t -> closes l l').
Proof.
  intros r l m l' Hc. unfold closeGroup in Hc. apply pbind_inv in Hc as (u & l1 & H1 & Hc). unfold padvance in H1. inversion H1; subst l1. clear H1.
  apply pbind_inv in Hc as (c & l1 & H1 & Hc). inversion H1; subst c l1. clear H1. split.
  - intros ->. assert (Ha : advance E 1 [] = []) by (unfold advance; cbn [List.length Nat.leb]; apply OV). rewrite Ha in Hc. cbn [peek] in Hc.
    assert (Hp : peek E [] = 0 \/ peek E [] = RuneError) by (cbn [peek]; apply (ok_eofr E OK)).
    cbn [peek] in Hp. unfold RuneError in Hp.
    repeat match type of Hc with context [if ?x =? ?y then _ else _] => destruct (Z.eqb_spec x y) as [Hq|_]; [exfalso; lia|] end. inversion Hc; reflexivity.
  - intros t ->. rewrite advance_1 in Hc. unfold closes.
    destruct (Z.eqb_spec (peek E t) 63) as [Hq|_].
    { apply (peek_is E OK NC) in Hq as [t' ->]; [|lia]. apply pbind_inv in Hc as (u1 & l1 & H1 & Hc). unfold padvance in H1. rewrite advance_1 in H1. inversion H1; subst l1. inversion Hc; subst.
      exists Opt. split; [auto|reflexivity]. }
    exists Once. split; [auto|]. cbn [app sign]. f_equal.
    destruct (peek E t =? 42); [inversion Hc; auto|]. destruct (peek E t =? 43); [destruct r; inversion Hc; auto|]. inversion Hc; auto.
Qed.
(* what is left of a group behind one of its members: nothing, or a separator
   and members *)
Definition rest_of (d : nat) (sep : Z) (t : list Z) (more : option (Z * cps)) : Prop :=
  match more with
  | None => t = []
  | Some (x, cs) => (x = 44 \/ x = 124) /\ (sep = 0 \/ sep = x) /\ exists r, t = x :: r /\ ctexts E d x cs r
  end.
Definition deep (depth : Z) : nat := Z.to_nat (128 - depth).
Definition DeclP (n : nat) : Prop := forall depth l m l', 0 <= depth -> childrenDecl E n depth l = (Ret m, l') -> l' = [] \/
  (depth <= 128 /\ exists sep cs t l1, (sep = 44 \/ sep = 124) /\ l = t ++ l1 /\ closes l1 l' /\ ctexts E (deep depth) sep cs t).
Definition LoopP (n : nat) : Prop := forall depth sep ch last l m l', 0 <= depth -> depth <= 128 -> childrenLoop E n depth sep ch last l = (Ret m, l') -> l' = [] \/
  exists t more l1, l = t ++ l1 /\ closes l1 l' /\ rest_of (deep depth) sep t more.

(* a member *)
Lemma member_form : forall n, DeclP n -> forall A (k1 : option econt -> A) (k2 : econt -> A) depth l r l', 0 <= depth ->
  (if peek E l =? 40
   then pbind (padvance E 1) (fun _ => pbind skipBlanks (fun _ => pbind (pwrap (childrenDecl E n (depth + 1))) (fun r => pbind skipBlanks (fun _ => pret (k1 r)))))
   else pbind (nameLeaf E) (fun e => pret (k2 e))) l = (Ret r, l') ->
  l' = [] \/ exists c t b, l = t ++ b ++ l' /\ ctext E (deep depth) c t /\ blanks b.
Proof.
  intros n IH A k1 k2 depth l r l' Hd Hm. destruct (Z.eqb_spec (peek E l) 40) as [Hq|_].
  - apply (peek_is E OK NC) in Hq as [t ->]; [|lia]. apply pbind_inv in Hm as (u & l1 & H1 & Hm). unfold padvance in H1. rewrite advance_1 in H1. inversion H1; subst l1. clear H1.
    apply pbind_inv in Hm as (b0 & l1 & H1 & Hm). apply skip_form in H1 as (w & -> & Hw & _ & _).
    apply pbind_inv in Hm as (x & l2 & H2 & Hm). apply pwrap_inv in H2. apply IH in H2; [|lia].
    apply pbind_inv in Hm as (b1 & l3 & H3 & Hm). inversion Hm; subst. apply skip_form in H3 as (w' & -> & Hw' & _ & _).
    destruct H2 as [H2|(H2 & sep & cs & t & l3 & Hs & -> & (o & Ho & ->) & Ht)].
    + left. apply app_eq_nil in H2. apply H2.
    + right. exists (Group sep cs o), ([40] ++ (w ++ t) ++ [41] ++ sign o), w'. split; [cbn [app]; rewrite <- !app_assoc; cbn [app]; rewrite <- ?app_assoc; reflexivity|]. split; [|auto].
      assert (Hx : deep depth = Datatypes.S (deep (depth + 1))) by (unfold deep; lia). rewrite Hx. constructor; auto.
      clear - Hw Ht. destruct Ht as [d sep c a t b Ha Hc Hb|d sep c cs a t b r Ha Hc Hb Hr].
      * rewrite app_assoc. constructor; auto. apply Forall_app; auto.
      * rewrite app_assoc. constructor; auto. apply Forall_app; auto.
  - apply pbind_inv in Hm as (e & l1 & H1 & Hm). inversion Hm; subst. apply leaf_form in H1 as (nm & o & t & -> & Ht). right. exists (Name [] nm o), t, []. split; [auto|]. split; [auto|constructor].
Qed.
Lemma children_both : forall n, DeclP n /\ LoopP n.
Proof.
  induction n as [|n [ID IL]]; split.
  - intros depth l m l' _ Hc. discriminate.
  - intros depth sep ch last l m l' _ _ Hc. discriminate.
  - intros depth l m l' Hd Hc. cbn [childrenDecl] in Hc. destruct (Z.ltb_spec 128 depth) as [|Hd2]; [discriminate|].
    apply pbind_inv in Hc as (b & l1 & H1 & Hc). apply skip_form in H1 as (w & -> & Hw & _ & _).
    apply pbind_inv in Hc as (c & l2 & H1 & Hc). inversion H1; subst c l2. clear H1.
    apply pbind_inv in Hc as (ch & l2 & H2 & Hc). apply (member_form n ID _ (fun _ => Leaf None) (fun e => Leaf (Some e))) in H2; [|auto].
    apply pbind_inv in Hc as (b' & l3 & H3 & Hc). apply skip_form in H3 as (w' & -> & Hw' & _ & _).
    apply IL in Hc; [|auto|auto]. destruct Hc as [Hc|(t' & more & l4 & -> & Hcl & Hmore)]; [auto|].
    destruct H2 as [H2|(c & t & b0 & -> & Ht & Hb0)].
    { destruct Hcl as (o & _ & ->). exfalso. apply app_eq_nil in H2 as [_ H2]. apply app_eq_nil in H2 as [_ H2]. discriminate. }
    right. split; [auto|]. destruct more as [[x cs]|]; cbn [rest_of] in Hmore.
    + destruct Hmore as (Hx & _ & r & -> & Hr). exists x, (More c cs), (w ++ t ++ (b0 ++ w') ++ [x] ++ r), l4. split; [auto|]. split; [rewrite <- !app_assoc; reflexivity|]. split; [auto|].
      constructor; auto. apply Forall_app; auto.
    + subst t'. exists 44, (One c), (w ++ t ++ b0 ++ w'), l4. split; [auto|]. split; [rewrite <- !app_assoc; reflexivity|]. split; [auto|].
      constructor; auto. apply Forall_app; auto.
  - intros depth sep ch last l m l' Hd Hd2 Hc. cbn [childrenLoop] in Hc. apply pbind_inv in Hc as (d & l1 & H1 & Hc). inversion H1; subst d l1. clear H1.
    destruct l as [|x l].
    { cbn [done] in Hc. apply closeGroup_form in Hc as [Hc _]. auto. }
    cbn [done] in Hc. apply pbind_inv in Hc as (c & l1 & H1 & Hc). inversion H1; subst c l1. clear H1. cbn [peek hd] in Hc.
    destruct (Z.eqb_spec x 41) as [->|N41].
    { apply closeGroup_form in Hc as [_ Hc]. right. exists [], None, (41 :: l). split; [auto|]. split; [eauto|reflexivity]. }
    destruct ((x =? 44) || (x =? 124)) eqn:Hx; cbn [negb] in Hc; [|discriminate].
    destruct (negb (sep =? 0) && negb (sep =? x)) eqn:Hsep; [discriminate|].
    apply pbind_inv in Hc as (u & l1 & H1 & Hc). unfold padvance in H1. rewrite advance_1 in H1. inversion H1; subst l1. clear H1. cbv zeta in Hc.
    apply pbind_inv in Hc as (b & l1 & H1 & Hc). apply skip_form in H1 as (w & -> & Hw & _ & _).
    apply pbind_inv in Hc as (c2 & l2 & H1 & Hc). inversion H1; subst c2 l2. clear H1.
    apply pbind_inv in Hc as (last' & l2 & H2 & Hc). apply (member_form n ID _ (fun r => r) (fun e => Some e)) in H2; [|auto].
    apply pbind_inv in Hc as (b' & l3 & H3 & Hc). apply skip_form in H3 as (w' & -> & Hw' & _ & _).
    apply IL in Hc; [|auto|auto]. destruct Hc as [Hc|(t' & more & l4 & -> & Hcl & Hmore)]; [auto|].
    destruct H2 as [H2|(c & t & b0 & -> & Ht & Hb0)].
    { destruct Hcl as (o & _ & ->). exfalso. apply app_eq_nil in H2 as [_ H2]. apply app_eq_nil in H2 as [_ H2]. discriminate. }
    right. destruct more as [[y cs]|]; cbn [rest_of] in Hmore.
    + destruct Hmore as (Hy & Hyx & r & -> & Hr). assert (y = x) by lia. subst y.
      exists (x :: w ++ t ++ (b0 ++ w') ++ [x] ++ r), (Some (x, More c cs)), l4. split; [cbn [app]; rewrite <- !app_assoc; reflexivity|]. split; [auto|].
      cbn [rest_of]. split; [lia|]. split; [lia|]. eexists. split; [reflexivity|]. constructor; auto. apply Forall_app; auto.
    + subst t'. exists (x :: w ++ t ++ b0 ++ w'), (Some (x, One c)), l4. split; [cbn [app]; rewrite <- !app_assoc; reflexivity|]. split; [auto|].
      cbn [rest_of]. split; [lia|]. split; [lia|]. eexists. split; [reflexivity|]. constructor; auto. apply Forall_app; auto.
Qed.
Ltac adv H := unfold padvance in H; rewrite ?advance_1 in H; match type of H with _ = (_, ?b) => inversion H; subst b; clear H end.
Ltac flat := cbn [app]; repeat (rewrite <- ?app_assoc; cbn [app]); reflexivity.
Lemma xname_some : forall n, xname E n -> utf8 n <> [].
Proof. intros [|c n] [Hn _]; [destruct Hn|]. rewrite utf8_at. intros He. apply app_eq_nil in He as [He _]. exact (encode_nonempty _ He). Qed.
Lemma mixedLoop_end : forall n r e l m e' l', e <> [] -> mixedLoop E n r e l = (Ret (m, e'), l') -> l' = l /\ e' = e.
Proof.
  intros [|n] r e l m e' l' He Hm; [discriminate|]. cbn [mixedLoop] in Hm. apply pbind_inv in Hm as (c & l1 & H1 & Hm). inversion H1; subst c l1. clear H1.
  destruct (negb (peek E l =? 124)); [inversion Hm; auto|]. apply pbind_inv in Hm as (u & l1 & H1 & Hm). destruct e as [|b e]; [congruence|].
  apply pbind_inv in Hm as (x & l2 & H2 & Hm). discriminate.
Qed.
Lemma mixed_form : forall n l m l', mixedDecl E n l = (Ret m, l') -> exists t, l = t ++ l' /\ forall a, blanks a -> model_text E MixedElementType ([40] ++ a ++ t).
Proof.
  intros n l m l' Hm. unfold mixedDecl in Hm. apply pbind_inv in Hm as (ok & l1 & H1 & Hm). apply pconsume_inv in H1 as [[-> ->]|(-> & _)]; [|discriminate]. cbn [negb] in Hm.
  apply pbind_inv in Hm as (c & l2 & H1 & Hm). inversion H1; subst c l2. clear H1. destruct (Z.eqb_spec (peek E l1) 41) as [Hq|N41].
  - apply (peek_is E OK NC) in Hq as [t ->]; [|lia]. apply pbind_inv in Hm as (u & l2 & H1 & Hm). adv H1. apply pbind_inv in Hm as (c & l2 & H1 & Hm). inversion H1; subst c l2. clear H1.
    destruct (Z.eqb_spec (peek E t) 42) as [Hq|_].
    + apply (peek_is E OK NC) in Hq as [t' ->]; [|lia]. apply pbind_inv in Hm as (u1 & l2 & H1 & Hm). adv H1. inversion Hm; subst.
      exists (s_ "#PCDATA" ++ [41; 42]). split; [flat|]. intros a Ha. apply (mt_text E a true Ha).
    + inversion Hm; subst. exists (s_ "#PCDATA" ++ [41]). split; [flat|]. intros a Ha. apply (mt_text E a false Ha).
  - apply pbind_inv in Hm as ([ret elem] & l2 & H2 & Hm). destruct n as [|n]; [discriminate|]. cbn [mixedLoop] in H2.
    apply pbind_inv in H2 as (c & l3 & H1 & H2). inversion H1; subst c l3. clear H1. destruct (Z.eqb_spec (peek E l1) 124) as [Hq|N124]; cbn [negb] in H2.
    + apply (peek_is E OK NC) in Hq as [t ->]; [|lia]. apply pbind_inv in H2 as (u & l3 & H1 & H2). adv H1. apply pbind_inv in H2 as (b0 & l4 & H1 & H2). apply skip_form in H1 as (b & -> & Hb & _ & _).
      apply pbind_inv in H2 as (e & l5 & H1 & H2). apply pwrap_inv, xname_form in H1 as (nm & z & -> & -> & Hz & Hn). apply pbind_inv in H2 as (b1 & l6 & H1 & H2).
      apply skip_form in H1 as (w & -> & Hw & _ & _). apply mixedLoop_end in H2 as [-> ->]; [|apply xname_some; auto].
      apply pbind_inv in Hm as (fin & l7 & H1 & Hm). inversion H1; subst fin l7. clear H1.
      destruct ((peekn E 1 l6 =? 41) && (peekn E 2 l6 =? 42)) eqn:Hf.
      * assert (Hl : exists t, l6 = 41 :: 42 :: t).
        { apply andb_true_iff in Hf as [F1 F2]. destruct (ok_eofr E OK) as [Q|Q]; destruct l6 as [|x [|y t]]; unfold peekn in F1, F2; cbn in F1, F2; rewrite ?Q in *; unfold RuneError in *; try lia; exists t; f_equal; try f_equal; lia. }
        destruct Hl as [t ->]. apply pbind_inv in Hm as (u0 & l7 & H1 & Hm). unfold padvance in H1. assert (Ha : advance E 2 (41 :: 42 :: t) = t) by reflexivity. rewrite Ha in H1. inversion H1; subst l7. clear H1.
        destruct (utf8 nm) as [|y ys] eqn:Hu; [exfalso; eapply xname_some; eauto|]. apply pbind_inv in Hm as (c2 & l7 & H1 & Hm). apply pwrap_inv in H1. unfold plift in H1. inversion H1; subst l7.
        assert (Hl : l' = t) by (destruct ret as [[]|]; inversion Hm; auto). subst l'.
        exists (s_ "#PCDATA|" ++ b ++ nm ++ z ++ w ++ [41; 42]). split; [flat|]. intros a Ha'. apply mt_or; auto.
      * inversion Hm; subst. exists (s_ "#PCDATA|" ++ b ++ nm ++ z ++ w). split; [flat|]. intros a Ha. apply mt_open_or; auto.
    + inversion H2; subst. apply pbind_inv in Hm as (fin & l7 & H1 & Hm). inversion H1; subst fin l7. clear H1.
      assert (Hf : (peekn E 1 l2 =? 41) && (peekn E 2 l2 =? 42) = false).
      { assert (Hp : peekn E 1 l2 = peek E l2) by (destruct l2; reflexivity). rewrite Hp. destruct (Z.eqb_spec (peek E l2) 41); [contradiction|reflexivity]. }
      rewrite Hf in Hm. inversion Hm; subst. exists (s_ "#PCDATA"). split; [flat|]. intros a Ha. apply mt_open; auto.
Qed.
Lemma content_form : forall n l m typ l', elementContentDecl E n l = (Ret (m, typ), l') -> l' = [] \/ exists t b, l = t ++ b ++ l' /\ model_text E typ t /\ blanks b.
Proof.
  intros n l m typ l' Hm. unfold elementContentDecl in Hm. apply pbind_inv in Hm as (c & l1 & H1 & Hm). inversion H1; subst c l1. clear H1.
  destruct (Z.eqb_spec (peek E l) 40) as [Hq|_]; [|discriminate]. apply (peek_is E OK NC) in Hq as [t ->]; [|lia]. cbn [negb] in Hm.
  apply pbind_inv in Hm as (u & l1 & H1 & Hm). adv H1. apply pbind_inv in Hm as (b0 & l2 & H1 & Hm). apply skip_form in H1 as (a & -> & Ha & _ & _).
  apply pbind_inv in Hm as (mx & l3 & H1 & Hm). inversion H1; subst mx l3. clear H1. match type of Hm with (if ?b then _ else _) _ = _ => destruct b end.
  - apply pbind_inv in Hm as (ec & l3 & H1 & Hm). apply pwrap_inv, mixed_form in H1 as (t & -> & Ht). apply pbind_inv in Hm as (b1 & l4 & H1 & Hm). apply skip_form in H1 as (w & -> & Hw & _ & _).
    inversion Hm; subst. right. exists ([40] ++ a ++ t), w. split; [flat|]. auto.
  - apply pbind_inv in Hm as (ec & l3 & H1 & Hm). apply pwrap_inv in H1. apply (proj1 (children_both n)) in H1; [|lia]. apply pbind_inv in Hm as (b1 & l4 & H2 & Hm). apply skip_form in H2 as (w & -> & Hw & _ & _).
    inversion Hm; subst. destruct H1 as [H1|(_ & sep & cs & t & l4 & Hs & -> & (o & Ho & ->) & Ht)].
    + apply app_eq_nil in H1. left. apply H1.
    + right. exists ([40] ++ (a ++ t) ++ [41] ++ sign o), w. split; [flat|]. split; [|auto]. apply (mt_children E sep cs o). unfold max_nesting.
      change 129%nat with (Datatypes.S (deep 0)). constructor; auto.
      clear - Ha Ht. destruct Ht as [d sep c a' t b Ha' Hc Hb|d sep c cs a' t b r Ha' Hc Hb Hr]; rewrite app_assoc; constructor; auto; apply Forall_app; auto.
Qed.
(* a whole declaration *)
(* more fuel does not change an answer *)
Definition grows {A} (m1 m2 : P A) : Prop := forall l, fst (m1 l) = Oof \/ m1 l = m2 l.
Lemma grows_refl : forall A (m : P A), grows m m. Proof. intros A m l. auto. Qed.
Lemma grows_bind : forall A B (m1 m2 : P A) (k1 k2 : A -> P B), grows m1 m2 -> (forall a, grows (k1 a) (k2 a)) -> grows (pbind m1 k1) (pbind m2 k2).
Proof.
  intros A B m1 m2 k1 k2 Hm Hk l. unfold pbind. destruct (Hm l) as [Hl|Hl].
  - left. destruct (m1 l) as [o l1]. cbn [fst] in Hl. subst o. reflexivity.
  - rewrite <- Hl. destruct (m1 l) as [[a|e| |] l1]; auto. apply Hk.
Qed.
Lemma grows_wrap : forall A (m1 m2 : P A), grows m1 m2 -> grows (pwrap m1) (pwrap m2).
Proof.
  intros A m1 m2 Hm l. unfold pwrap. destruct (Hm l) as [Hl|Hl]; [left|right; rewrite Hl; auto]. destruct (m1 l) as [o l1]. cbn [fst] in Hl. subst o. reflexivity.
Qed.
Lemma grows_if : forall A (b : bool) (m1 m2 k1 k2 : P A), grows m1 m2 -> grows k1 k2 -> grows (if b then m1 else k1) (if b then m2 else k2).
Proof. intros A [|] m1 m2 k1 k2 H1 H2; auto. Qed.
Ltac grow := repeat first [apply grows_refl | assumption | apply grows_bind; [|intros ?] | apply grows_wrap | apply grows_if].
Lemma children_grow : forall n, (forall d, grows (childrenDecl E n d) (childrenDecl E (Datatypes.S n) d)) /\
  (forall d sep ch last, grows (childrenLoop E n d sep ch last) (childrenLoop E (Datatypes.S n) d sep ch last)).
Proof.
  induction n as [|n [IH1 IH2]]; [split; intros; intros l; left; reflexivity|]. split.
  - intros d. change (childrenDecl E (Datatypes.S n) d) with (if 128 <? d then pfail (Plain "depth too deep") else
      (skipBlanks ;; c <- ppeek E ;;
       ch <- (if c =? 40 then padvance E 1 ;; skipBlanks ;; pwrap (childrenDecl E n (d + 1)) ;; skipBlanks ;; pret (Leaf None)
              else e <- nameLeaf E ;; pret (Leaf (Some e))) ;;
       skipBlanks ;; childrenLoop E n d 0 ch None)%scan).
    change (childrenDecl E (Datatypes.S (Datatypes.S n)) d) with (if 128 <? d then pfail (Plain "depth too deep") else
      (skipBlanks ;; c <- ppeek E ;;
       ch <- (if c =? 40 then padvance E 1 ;; skipBlanks ;; pwrap (childrenDecl E (Datatypes.S n) (d + 1)) ;; skipBlanks ;; pret (Leaf None)
              else e <- nameLeaf E ;; pret (Leaf (Some e))) ;;
       skipBlanks ;; childrenLoop E (Datatypes.S n) d 0 ch None)%scan).
    grow; auto.
  - intros d sep ch last.
    assert (Q : forall k, childrenLoop E (Datatypes.S k) d sep ch last = (
     d0 <- (fun l => (Ret (done l), l)) ;;
     if d0 then closeGroup E (build ch last)
     else
       c <- ppeek E ;;
       if c =? 41 then closeGroup E (build ch last)
       else if negb ((c =? 44) || (c =? 124)) then pfailw "ErrElementContentNotFinished"
       else if negb (sep =? 0) && negb (sep =? c) then pfailw "separator expected"
       else
         padvance E 1 ;;
         let ch' := addOp (if c =? 44 then ctSeq else ctOr) ch last in
         skipBlanks ;;
         c2 <- ppeek E ;;
         last' <- (if c2 =? 40
                   then padvance E 1 ;; skipBlanks ;; r <- pwrap (childrenDecl E k (d + 1)) ;; skipBlanks ;; pret r
                   else e <- nameLeaf E ;; pret (Some e)) ;;
         skipBlanks ;;
         childrenLoop E k d c ch' last')%scan) by reflexivity.
    rewrite !Q. cbv zeta. grow; auto.
Qed.
Lemma mixed_grow : forall n ret elem, grows (mixedLoop E n ret elem) (mixedLoop E (Datatypes.S n) ret elem).
Proof.
  induction n as [|n IH]; intros ret elem; [intros l; left; reflexivity|].
  assert (Q : forall k, mixedLoop E (Datatypes.S k) ret elem = (
     c <- ppeek E ;;
     if negb (c =? 124) then pret (ret, elem)
     else
       padvance E 1 ;;
       match elem with
       | [] => skipBlanks ;; e <- pwrap (parseName E) ;; skipBlanks ;; mixedLoop E k (Some (EC ctOr ocOnce [] [] ret None)) e
       | _ => pwrap (plift (newElementContent [] ctElement)) ;; poof
       end)%scan) by reflexivity.
  rewrite !Q. destruct elem; grow; auto.
Qed.
Lemma content_grow : forall n, grows (elementContentDecl E n) (elementContentDecl E (Datatypes.S n)).
Proof.
  intros n. unfold elementContentDecl, mixedDecl. cbv zeta. grow; try apply children_grow; apply mixed_grow.
Qed.
Lemma content_more : forall n k l r, (n <= k)%nat -> elementContentDecl E n l = r -> fst r <> Oof -> elementContentDecl E k l = r.
Proof.
  intros n k l r Hk Hm Hr. induction Hk as [|k Hk IH]; [auto|]. destruct (content_grow k l) as [X|X]; [|congruence]. rewrite IH in X. congruence.
Qed.
(* the model of a text that is well-formed *)
Lemma content_same : forall n t c r m typ l', elementContentDecl E n (t ++ c ++ 62 :: r) = (Ret (m, typ), l') -> blanks c ->
  forall sp, spec_fits E sp -> spec_text sp t -> ContentProofs.same (stored_lang typ m) (spec_lang sp).
Proof.
  intros n t c r m typ l' Hm Hc sp F T. apply (content_more n (n + List.length t + 2)) in Hm; [|lia|discriminate].
  assert (Q : forall l1, elementContentDecl E (n + List.length t + 2) (t ++ c ++ 62 :: r) = (Ret (spec_model sp, spec_type sp), l1) -> ContentProofs.same (stored_lang typ m) (spec_lang sp)).
  { intros l1 X. rewrite Hm in X. inversion X; subst. apply (spec_stored E). auto. }
  destruct T as [| |st b Hb|p l a b d Ha Hb Hd|sep l o t T].
  - exfalso. discriminate Hm.
  - exfalso. discriminate Hm.
  - eapply Q. apply (content_text E st b _ c 62 r); auto.
  - eapply Q. apply (content_text_or E OK p l a b d _ c 62 r); auto. lia.
  - eapply Q. apply (content_children E OK sep l o t _ c 62 r); auto. lia.
Qed.
Lemma element_form : forall n l v typ m l', scanElementDecl E n l = (Ret (v, typ, m), l') -> exists b nm z b' t c,
  l = s_ "<!ELEMENT" ++ b ++ nm ++ z ++ b' ++ t ++ c ++ [62] ++ l' /\ v = utf8 nm /\ b <> [] /\ blanks b /\ xname E nm /\ drop z /\ b' <> [] /\ blanks b' /\ model_text E typ t /\ blanks c /\
  (forall sp, spec_fits E sp -> spec_text sp t -> ContentProofs.same (stored_lang typ m) (spec_lang sp)).
Proof.
  intros n l v typ m l' Hm. unfold scanElementDecl in Hm. apply pbind_inv in Hm as (ok & l1 & H1 & Hm). apply pconsume_inv in H1 as [[-> ->]|(-> & _)]; [|discriminate]. cbn [negb] in Hm.
  apply pbind_inv in Hm as (c & l2 & H1 & Hm). inversion H1; subst c l2. clear H1. destruct (isBlankCh (peek E l1)) eqn:Hb1; [|discriminate]. cbn [negb] in Hm.
  apply pbind_inv in Hm as (x & l2 & H1 & Hm). apply skip_blank in H1 as (b & -> & Hb & Hbn & _); [|auto].
  apply pbind_inv in Hm as (nv & l3 & H1 & Hm). apply pwrap_inv, xname_form in H1 as (nm & z & -> & -> & Hz & Hn).
  apply pbind_inv in Hm as (c & l4 & H1 & Hm). inversion H1; subst c l4. clear H1. destruct (isBlankCh (peek E l3)) eqn:Hb2; [|discriminate]. cbn [negb] in Hm.
  apply pbind_inv in Hm as (x' & l4 & H1 & Hm). apply skip_blank in H1 as (b' & -> & Hb' & Hbn' & _); [|auto].
  apply pbind_inv in Hm as ([m' typ'] & l5 & H1 & Hm). cbn [fst snd] in Hm.
  apply pbind_inv in Hm as (x2 & l6 & H2 & Hm). apply skip_form in H2 as (c & -> & Hc & _ & _).
  apply pbind_inv in Hm as (y & l7 & H2 & Hm). inversion H2; subst y l7. clear H2. destruct (Z.eqb_spec (peek E l6) 62) as [Hq|_]; [|discriminate]. apply (peek_is E OK NC) in Hq as [t0 ->]; [|lia]. cbn [negb] in Hm.
  apply pbind_inv in Hm as (u & l7 & H2 & Hm). adv H2. inversion Hm; subst. clear Hm.
  assert (S0 : forall sp, spec_text sp [] -> False) by (intros sp T; apply spec_start in T as (x0 & y0 & T & _); discriminate).
  assert (Ht : exists t b0, l4 = t ++ b0 ++ c ++ 62 :: l' /\ model_text E typ t /\ blanks b0 /\
    (forall sp, spec_fits E sp -> spec_text sp t -> ContentProofs.same (stored_lang typ m) (spec_lang sp))).
  { apply pbind_inv in H1 as (em & l5 & H2 & H1). apply pconsume_inv in H2 as [[-> ->]|(-> & -> & _)].
    { inversion H1; subst. exists (s_ "EMPTY"), []. split; [auto|]. split; [constructor|]. split; [constructor|].
      intros sp _ T w. inversion T as [| | | |sep l0 o t0 T0]; [reflexivity|inversion T0]. }
    apply pbind_inv in H1 as (an & l5 & H2 & H1). apply pconsume_inv in H2 as [[-> ->]|(-> & -> & _)].
    { inversion H1; subst. exists (s_ "ANY"), []. split; [auto|]. split; [constructor|]. split; [constructor|].
      intros sp _ T w. inversion T as [| | | |sep l0 o t0 T0]; [reflexivity|inversion T0]. }
    apply pbind_inv in H1 as (c3 & l5 & H2 & H1). inversion H2; subst c3 l5. clear H2. destruct (peek E l4 =? 40).
    - apply pwrap_inv in H1. pose proof H1 as Hk. apply content_form in H1 as [H1|(t & b0 & -> & Ht & Hb0)]; [apply app_eq_nil in H1 as [_ H1]; discriminate|]. exists t, b0.
      split; [auto|]. split; [auto|]. split; [auto|]. rewrite (app_assoc b0) in Hk. eapply content_same; [exact Hk|]. apply Forall_app; auto.
    - inversion H1; subst. exists [], []. split; [auto|]. split; [constructor|]. split; [constructor|]. intros sp _ T. exfalso. eauto. }
  destruct Ht as (t & b0 & -> & Ht & Hb0 & Hsame). exists b, nm, z, b', t, (b0 ++ c). split; [flat|]. split; [auto|]. do 7 (split; [auto|]). split; [apply Forall_app; split; auto|auto].
Qed.

(* ---- types of attributes ---- *)
Lemma tokens_form : forall (tok : P str) (P : list Z -> list Z -> Prop), (forall l v l', tok l = (Ret v, l') -> exists n t, l = t ++ l' /\ v = utf8 n /\ P n t) ->
  forall n acc l vs l', tokenLoop E n tok acc l = (Ret vs, l') -> exists ns t, l = t ++ l' /\ vs = acc ++ map utf8 ns /\ listing P ns t.
Proof.
  intros tok P Htok. induction n as [|n IH]; intros acc l vs l' Hm; [discriminate|]. cbn [tokenLoop] in Hm.
  apply pbind_inv in Hm as (v & l1 & H1 & Hm). apply Htok in H1 as (nm & t & -> & -> & Hp). apply pbind_inv in Hm as (x & l2 & H1 & Hm). apply skip_form in H1 as (b & -> & Hb & _ & _).
  apply pbind_inv in Hm as (c & l3 & H1 & Hm). inversion H1; subst c l3. clear H1. destruct (Z.eqb_spec (peek E l2) 124) as [Hq|_]; cbn [negb] in Hm.
  - apply (peek_is E OK NC) in Hq as [t0 ->]; [|lia]. apply pbind_inv in Hm as (u & l3 & H1 & Hm). adv H1. apply pbind_inv in Hm as (x' & l4 & H1 & Hm). apply skip_form in H1 as (a & -> & Ha & _ & _).
    apply IH in Hm as (ns & r & -> & -> & Hr). exists (nm :: ns), (t ++ b ++ [124] ++ a ++ r). split; [flat|]. split; [cbn [map]; rewrite <- app_assoc; reflexivity|]. constructor; auto.
  - inversion Hm; subst. exists [nm], (t ++ b). split; [flat|]. split; [auto|]. constructor; auto.
Qed.
Lemma list_form : forall (tok : P str) (P : list Z -> list Z -> Prop), (forall l v l', tok l = (Ret v, l') -> exists n t, l = t ++ l' /\ v = utf8 n /\ P n t) ->
  forall n k1 k2 l vs l', tokenList E n tok k1 k2 l = (Ret vs, l') -> exists a ns t, l = [40] ++ a ++ t ++ [41] ++ l' /\ blanks a /\ vs = map utf8 ns /\ listing P ns t.
Proof.
  intros tok P Htok n k1 k2 l vs l' Hm. unfold tokenList in Hm. apply pbind_inv in Hm as (c & l1 & H1 & Hm). inversion H1; subst c l1. clear H1.
  destruct (Z.eqb_spec (peek E l) 40) as [Hq|_]; [|discriminate]. apply (peek_is E OK NC) in Hq as [t0 ->]; [|lia]. cbn [negb] in Hm.
  apply pbind_inv in Hm as (u & l1 & H1 & Hm). adv H1. apply pbind_inv in Hm as (x & l2 & H1 & Hm). apply skip_form in H1 as (a & -> & Ha & _ & _).
  apply pbind_inv in Hm as (vs' & l3 & H1 & Hm). apply (tokens_form tok P Htok) in H1 as (ns & t & -> & -> & Ht).
  apply pbind_inv in Hm as (c & l4 & H1 & Hm). inversion H1; subst c l4. clear H1. destruct (Z.eqb_spec (peek E l3) 41) as [Hq|_]; [|discriminate]. apply (peek_is E OK NC) in Hq as [t0 ->]; [|lia]. cbn [negb] in Hm.
  apply pbind_inv in Hm as (u0 & l4 & H1 & Hm). adv H1. inversion Hm; subst. exists a, ns, t. auto.
Qed.
Lemma keyword_form : forall ks orelse l typ vs l', tryKeywords ks orelse l = (Ret (typ, vs), l') ->
  (exists k, In (k, typ) ks /\ l = k ++ l' /\ vs = []) \/ orelse l = (Ret (typ, vs), l').
Proof.
  induction ks as [|[k z] ks IH]; intros orelse l typ vs l' Hm; [right; auto|]. cbn [tryKeywords] in Hm. apply pbind_inv in Hm as (ok & l1 & H1 & Hm).
  apply pconsume_inv in H1 as [[-> ->]|(-> & -> & _)].
  - inversion Hm; subst. left. exists k. split; [left; reflexivity|auto].
  - apply IH in Hm as [(k' & Hk & Hm)|Hm]; [left; exists k'; split; [right; auto|auto]|auto].
Qed.
Lemma type_form : forall n l typ vs l', parseAttributeType E n l = (Ret (typ, vs), l') -> exists ns t, l = t ++ l' /\ vs = map utf8 ns /\ type_text E typ ns t.
Proof.
  intros n l typ vs l' Hm. apply keyword_form in Hm as [(k & Hk & -> & ->)|Hm].
  - exists [], k. split; [auto|]. split; [auto|]. cbn [attrKeywords In] in Hk.
    repeat (destruct Hk as [Hk|Hk]; [inversion Hk; subst; apply ty_keyword; cbn; auto 10|]). destruct Hk.
  - unfold parseEnumeratedType in Hm. apply pbind_inv in Hm as (nt & l1 & H1 & Hm). apply pconsume_inv in H1 as [[-> ->]|(-> & -> & _)].
    + apply pbind_inv in Hm as (c & l2 & H1 & Hm). inversion H1; subst c l2. clear H1. destruct (isBlankCh (peek E l1)) eqn:Hb1; [|discriminate]. cbn [negb] in Hm.
      apply pbind_inv in Hm as (x & l2 & H1 & Hm). apply skip_blank in H1 as (b & -> & Hb & Hbn & _); [|auto].
      apply pbind_inv in Hm as (vs' & l3 & H1 & Hm). inversion Hm; subst. apply (list_form _ (a_name E)) in H1 as (a & ns & t & -> & Ha & -> & Ht).
      * exists ns, (s_ "NOTATION" ++ b ++ [40] ++ a ++ t ++ [41]). split; [flat|]. split; [auto|]. constructor; auto.
      * intros l0 v l0' Hp. apply por_else_inv, xname_form in Hp as (nm & z & -> & -> & Hz & Hn). exists nm, (nm ++ z). split; [flat|]. split; [auto|]. split; [auto|]. exists z. auto.
    + apply pbind_inv in Hm as (vs' & l3 & H1 & Hm). inversion Hm; subst. apply (list_form _ no_name) in H1 as (a & ns & t & -> & Ha & -> & Ht).
      * exists ns, ([40] ++ a ++ t ++ [41]). split; [flat|]. split; [auto|]. constructor; auto.
      * intros l0 v l0' Hp. unfold parseNmtoken in Hp. destruct ((peek E l0 =? 0) || _); inversion Hp; subst. exists [], []. split; [auto|]. split; [auto|]. split; auto.
Qed.

(* ---- values of entities ---- *)
Lemma number_suffix : forall base val s seen acc n r, number base val seen acc s = Some (n, r) -> suffix r s.
Proof.
  intros base val. induction s as [|c s IH]; intros seen acc n r Hn; [discriminate|]. cbn [number] in Hn. destruct (c =? 59).
  - destruct seen; [|discriminate]. inversion Hn; subst. exists [c]. auto.
  - destruct (val c); [|discriminate]. eapply suffix_trans; [eapply IH; eauto|exists [c]; auto].
Qed.
Lemma replaced_decodes : forall t v, replaced t v -> legals t -> legals v -> ~ In 37 t -> exists n, decodeEntities_fuel n (utf8 t) = Ret (utf8 v).
Proof.
  intros t v Hr. induction Hr as [|c t v Hc _ IH|t x t' v Href _ IH]; intros Lt Lv N.
  - exists O. reflexivity.
  - inversion Lt as [|? ? Lc Lt']; subst. inversion Lv as [|? ? _ Lv']; subst. destruct IH as [n Hn]; auto; [intros X; apply N; right; auto|].
    destruct (Z.eq_dec c 38) as [->|N38].
    + exists (Datatypes.S n). rewrite !utf8_at. rewrite encode_ascii by lia. cbn [app decodeEntities_fuel].
      assert (Hh : has_prefix (s_ "&#") (38 :: utf8 t) = false).
      { change (s_ "&#") with [38; 35]. cbn [has_prefix]. cbn [Z.eqb Pos.eqb andb]. specialize (Hc eq_refl). destruct t as [|d t]; [reflexivity|]. cbn [hd] in Hc. rewrite utf8_at.
        destruct (encode_cases d) as [[He _]|Hh]; [rewrite He; cbn [app]; lia|]. destruct (encode_rune d) as [|b bs] eqn:He; [exfalso; eapply encode_nonempty; eauto|]. inversion Hh; subst. cbn [app]. lia. }
      rewrite Hh. change (38 =? 37) with false. cbv iota. rewrite Hn. reflexivity.
    + exists (List.length (encode_rune c) + n)%nat. rewrite !utf8_at. rewrite decode_copy by (apply encode_plain; auto; intros ->; apply N; left; auto). rewrite Hn. reflexivity.
  - inversion Lv as [|? ? Lx Lv']; subst.
    destruct (reference_cases (35 :: t) x t' Href) as [(hex & b & Ht & Hnum & Hxc)|(nm & Ht & Hp & Hnm)].
    + assert (Hs : suffix t' (38 :: 35 :: t)).
      { rewrite Ht. eapply suffix_trans; [|exists (refPrefix hex); reflexivity]. destruct hex; cbn [refNumber] in Hnum; eapply number_suffix; eauto. }
      destruct Hs as (w & Hw). destruct IH as [n Hn]; auto.
      { rewrite Hw in Lt. apply Forall_app in Lt. apply Lt. }
      { intros X. apply N. rewrite Hw. apply in_or_app. auto. }
      exists (Datatypes.S n). rewrite Ht, utf8_app. assert (Hpre : utf8 (refPrefix hex) = refPrefix hex) by (destruct hex; reflexivity). rewrite Hpre.
      assert (Hnum' : refNumber hex (utf8 b) = Some (x, utf8 t')) by (destruct hex; cbn [refNumber] in *; apply number_utf8; auto; [exact hex_ascii|exact dec_ascii]).
      assert (Hp : exists w, refPrefix hex ++ utf8 b = 38 :: w /\ has_prefix (s_ "&#") (38 :: w) = true) by (destruct hex; eexists; split; reflexivity).
      destruct Hp as (w' & Hw' & Hp). cbn [decodeEntities_fuel]. rewrite Hw', Hp, <- Hw'. rewrite (stringCharRef_value hex _ _ _ Hnum').
      assert (Hi : isChar x = true) by (rewrite <- legal_is; auto). rewrite Hi, Hn. reflexivity.
    + exfalso. cbn [In] in Hnm. destruct Hnm as [<-|[<-|[<-|[<-|[<-|[]]]]]]; discriminate Ht.
Qed.
Lemma scr_plain : forall acc, (forall v, acc v 37 = None) -> forall l v x r, scrLoop acc v l = Ret (x, r) -> exists w, l = w ++ r /\ ~ In 37 w.
Proof.
  intros acc Ha. induction l as [|c l IH]; intros v x r Hs; [discriminate|]. cbn [scrLoop] in Hs. destruct (Z.eqb_spec c 59) as [->|_].
  - inversion Hs; subst. exists [59]. split; [auto|]. intros [X|[]]; discriminate.
  - destruct (acc v c) as [v'|] eqn:Hv; [|discriminate]. destruct (1114111 <? v'); [discriminate|]. apply IH in Hs as (w & -> & Hw). exists (c :: w). split; [auto|].
    intros [->|X]; [rewrite Ha in Hv; discriminate|auto].
Qed.
Lemma decode_plain : forall n s out, decodeEntities_fuel n s = Ret out -> ~ In 37 s.
Proof.
  induction n as [|n IH]; intros s out Hd; [destruct s; [intros []|discriminate]|]. destruct s as [|c t]; [intros []|]. cbn [decodeEntities_fuel] in Hd.
  destruct (has_prefix (s_ "&#") (c :: t)) eqn:Hh.
  - destruct (parseStringCharRef (c :: t)) as [[x r]| | |] eqn:Hp; try discriminate. destruct (decodeEntities_fuel n r) as [o| | |] eqn:Hr; try discriminate. apply IH in Hr.
    unfold parseStringCharRef in Hp. rewrite Hh in Hp. cbn [negb] in Hp. cbv zeta in Hp. change (s_ "&#") with [38; 35] in Hh. destruct t as [|d t]; [cbn in Hh; lia|].
    cbn [has_prefix] in Hh. cbn [skipn] in Hp. assert (Hcd : c = 38 /\ d = 35) by lia. destruct Hcd as [-> ->]. destruct t as [|a t]; [discriminate|].
    assert (Hw : exists w, a :: t = w ++ r /\ ~ In 37 w).
    { destruct (Z.eqb_spec a 120) as [->|_].
      - destruct (scrLoop accHex 0 t) as [[v r']| | |] eqn:Hs; try discriminate. apply scr_plain in Hs as (w & -> & Hw); [|reflexivity]. destruct (isChar v); inversion Hp; subst.
        exists (120 :: w). split; [auto|]. intros [X|X]; [discriminate|auto].
      - destruct (scrLoop accDec 0 (a :: t)) as [[v r']| | |] eqn:Hs; try discriminate. apply scr_plain in Hs as (w & -> & Hw); [|reflexivity]. destruct (isChar v); inversion Hp; subst. eauto. }
    destruct Hw as (w & -> & Hw). intros [X|[X|X]]; [discriminate|discriminate|]. apply in_app_or in X as [X|X]; auto.
  - destruct (Z.eqb_spec c 37); [discriminate|]. destruct (decodeEntities_fuel n t) as [o| | |] eqn:Hr; try discriminate. apply IH in Hr. intros [X|X]; auto.
Qed.
Lemma In_utf8 : forall b t, 0 <= b < 128 -> In b t -> In b (utf8 t).
Proof.
  intros b t Hb. induction t as [|c t IH]; intros Hi; [destruct Hi|]. rewrite utf8_at. apply in_or_app. destruct Hi as [->|Hi]; [left; rewrite encode_ascii by lia; left; auto|right; auto].
Qed.
Lemma entityValue_form : forall l o l', parseEntityValue E l = (o, l') -> peek E l = 34 \/ peek E l = 39 -> exists q lit r,
  (q = 34 \/ q = 39) /\ l = [q] ++ lit ++ r /\ legals lit /\ ~ In q lit /\ (r = q :: l' \/ (l' = r /\ match r with [] => True | c :: _ => legal c = false end)) /\
  match o with
  | Ret (_, val) => exists v, val = utf8 v /\ replaced lit v /\ legals v /\ ~ In 37 lit
  | Fail _ => In 37 lit \/ (forall v, replaced lit v -> ~ legals v)
  | _ => True
  end.
Proof.
  intros l o l' Hp Hq. assert (Hl : exists q t, (q = 34 \/ q = 39) /\ l = q :: t) by (destruct Hq as [Hq|Hq]; apply (peek_is E OK NC) in Hq as [t ->]; try lia; eauto).
  destruct Hl as (q & t & Hq' & ->). clear Hq. set (p := fun c => isChar c && negb (c =? q)).
  unfold parseEntityValue in Hp. unfold pbind at 1, ppeek in Hp. cbn [peek hd] in Hp.
  assert (Hb : (q =? 34) || (q =? 39) = true) by lia. rewrite Hb in Hp.
  assert (Ht : takeW p t ++ dropW p t = t) by apply takeW_dropW.
  assert (Hall : Forall (fun c => p c = true) (takeW p t)) by apply takeW_all.
  pose proof (dropW_head p t) as Hh.
  exists q, (takeW p t), (dropW p t). split; [auto|]. split; [cbn [app]; rewrite Ht; auto|].
  assert (HL : legals (takeW p t)). { eapply Forall_impl; [|exact Hall]. intros c Hc. unfold p in Hc. cbv beta in Hc. rewrite legal_is. apply andb_true_iff in Hc. apply Hc. }
  split; [auto|]. split. { rewrite Forall_forall in Hall. intros X. apply Hall in X. unfold p in X. cbv beta in X. rewrite Z.eqb_refl in X. rewrite andb_false_r in X. discriminate. }
  unfold pbind, padvance, ppeek, parseEntityValueInternal, pret, plift, pwrap in Hp. rewrite advance_1 in Hp. cbv zeta in Hp. fold p in Hp.
  assert (Hc : exists l1, (dropW p t = q :: l1 \/ (l1 = dropW p t /\ match dropW p t with [] => True | c :: _ => legal c = false end)) /\
     match decodeEntities (utf8 (takeW p t)) with
     | Ret val => (Ret (utf8 (takeW p t), val), l1)
     | Fail e => (Fail (ctx_error e), l1)
     | Pan => (Pan, l1)
     | Oof => (Oof, l1)
     end = (o, l')).
  { destruct (Z.eqb_spec (peek E (dropW p t)) q) as [Hx|Hx].
    - apply (peek_is E OK NC) in Hx as [t' Hx]; [|lia]. rewrite Hx in Hp. rewrite advance_1 in Hp. exists t'. split; [auto|]. rewrite <- Hp.
      destruct (decodeEntities (utf8 (takeW p t))); reflexivity.
    - exists (dropW p t). split; [|rewrite <- Hp; destruct (decodeEntities (utf8 (takeW p t))); reflexivity]. right. split; [auto|].
      destruct (dropW p t) as [|c r]; [auto|]. cbn [peek hd] in Hx. unfold p in Hh. rewrite legal_is. destruct (isChar c); [|auto]. cbn [andb] in Hh. lia. }
  destruct Hc as (l1 & Hr & Hc).
  assert (Hd : forall o0, decodeEntities (utf8 (takeW p t)) = o0 -> match o0 with
    | Ret val => exists v, val = utf8 v /\ replaced (takeW p t) v /\ legals v /\ ~ In 37 (takeW p t)
    | Fail _ => In 37 (takeW p t) \/ (forall v, replaced (takeW p t) v -> ~ legals v)
    | _ => True end).
  { intros o0 Ho. unfold decodeEntities in Ho. destruct o0 as [val|e| |]; auto.
    - destruct (decode_inv E NC OV _ _ (le_n _) HL _ _ Ho) as (v & Hv & Hrp & Hlv). exists v. split; [auto|]. split; [auto|]. split; [auto|]. intros X. eapply decode_plain; eauto. apply In_utf8; [lia|auto].
    - destruct (in_dec Z.eq_dec 37 (takeW p t)) as [|N37]; [auto|]. right. intros v Hv Lv. destruct (replaced_decodes _ _ Hv HL Lv N37) as [n Hn]. apply decode_length in Hn. congruence. }
  specialize (Hd _ eq_refl). destruct (decodeEntities (utf8 (takeW p t))) as [val|e| |]; inversion Hc; subst; (split; [destruct Hr as [Hr|[Hr Hr2]]; auto|auto]).
Qed.
End S.
