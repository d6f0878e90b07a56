(* Whatever parseXMLDecl of Scan.v accepts is an XML declaration in the sense
   of Loose.v. *)
From Verif Require Import Base Utf8 Utf8Proofs Encoding XmlSpec EscapeProofs Scan ScanProofs LexProofs Parser Grammar TextProofs Local Loose LooseLex.
From Coq Require Import ZifyBool.

Section S.
Variable E : env.
Hypothesis OK : env_ok E.
Hypothesis NC : forall c, isLetter E c || isDigit E c = true -> xml_char c = true.
Hypothesis OV : forall n l, over E n l = [].

Lemma skipb_form : forall l b l', skipBlankBytes E l = (Ret b, l') ->
  exists w, l = w ++ l' /\ blanks w /\ (b = true -> w <> []) /\ match l' with [] => True | c :: _ => blank c = false end.
Proof.
  intros l b l' Hs. unfold skipBlankBytes in Hs. exists (takeW isBlankCh l).
  assert (Hl : l' = dropW isBlankCh l) by (destruct (Nat.eqb _ 0); [|destruct (_ && _)]; inversion Hs; auto).
  subst l'. split; [symmetry; apply takeW_dropW|]. split; [apply blanks_is, takeW_all|]. split.
  - intros -> Hn. rewrite Hn in Hs. cbn [List.length Nat.eqb] in Hs. discriminate.
  - pose proof (dropW_head isBlankCh l) as Hh. destruct (dropW isBlankCh l); [auto|]. rewrite blank_is. auto.
Qed.
Lemma skipb_fail : forall l e l', skipBlankBytes E l <> (Fail e, l').
Proof. intros l e l'. unfold skipBlankBytes. destruct (Nat.eqb _ 0); [|destruct (_ && _)]; discriminate. Qed.
Lemma version_form : forall l v l', parseVersionNum E l = (Ret v, l') -> l = v ++ l' /\ version_num v.
Proof.
  intros l v l' Hv. unfold parseVersionNum in Hv.
  destruct (isD (bpeek E l)) eqn:H1; [|discriminate]. destruct (Z.eqb_spec (bpeekn E 2 l) 46) as [H2|]; [|discriminate].
  destruct (isD (bpeekn E 3 l)) eqn:H3; [|discriminate]. cbn [negb] in Hv.
  destruct l as [|a [|x [|b r]]]; cbn [bpeek bpeekn hd nth Nat.pred] in *;
    try (exfalso; destruct (ok_beof E OK) as [Q|Q]; rewrite Q in *; unfold RuneError, isD in *; lia).
  subst x. cbn [skipn firstn] in Hv. pose proof (takeW_dropW isD r) as Hr. pose proof (takeW_all isD r) as Ha.
  set (run := takeW isD r) in *. set (after := dropW isD r) in *. clearbody run after. subst r.
  change (3 + List.length run)%nat with (List.length (a :: 46 :: b :: run)) in Hv.
  change (a :: 46 :: b :: run ++ after) with ((a :: 46 :: b :: run) ++ after) in Hv. rewrite advance_app in Hv. inversion Hv; subst v l'. split; [reflexivity|].
  exists a, b, run. split; [reflexivity|]. split; [exact H1|]. split; [exact H3|]. exact Ha.
Qed.
Lemma encname_form : forall l v l', parseEncodingName E l = (Ret v, l') ->
  l' = [] \/ exists z, l = v ++ z ++ l' /\ enc_name v /\ (z = [] \/ z = [0]).
Proof.
  intros l v l' Hv. unfold parseEncodingName in Hv. destruct (isAZ (bpeek E l)) eqn:H1; [|discriminate]. cbn [negb] in Hv.
  destruct l as [|a r]; cbn [bpeek hd tl] in *; [exfalso; destruct (ok_beof E OK) as [Q|Q]; rewrite Q in *; discriminate|].
  pose proof (takeW_dropW encRest r) as Hr. pose proof (takeW_all encRest r) as Ha. set (run := takeW encRest r) in *. set (after := dropW encRest r) in *. clearbody run after.
  subst r. inversion Hv; subst v l'. clear Hv.
  assert (Hen : enc_name (a :: run)).
  { exists a, run. split; [reflexivity|]. split; [unfold alpha; unfold isAZ in H1; lia|]. eapply Forall_impl; [|exact Ha].
    intros c Hc. cbn beta in Hc. unfold encRest, isAZ, isD in Hc. unfold alpha, digit10. lia. }
  destruct after as [|c t].
  - left. rewrite app_nil_r. destruct (bpeek E [] =? 0).
    + unfold advance. cbn [List.length]. destruct (Nat.leb_spec (S (S (List.length run))) (S (List.length run))); [lia|]. apply OV.
    + change (S (List.length run)) with (List.length (a :: run)). rewrite <- (app_nil_r (a :: run)) at 2. rewrite advance_app. reflexivity.
  - right. cbn [bpeek hd]. destruct (Z.eqb_spec c 0) as [->|Hc].
    + exists [0]. split; [|auto]. change (a :: run ++ 0 :: t) with ((a :: run) ++ [0] ++ t). rewrite !app_assoc.
      replace (S (S (List.length run))) with (List.length ((a :: run) ++ [0])) by (rewrite app_length; cbn [List.length]; lia). rewrite advance_app. reflexivity.
    + exists []. split; [|auto]. change (a :: run ++ c :: t) with ((a :: run) ++ c :: t). change (S (List.length run)) with (List.length (a :: run)). rewrite advance_app. reflexivity.
Qed.
Lemma encname_fail : forall l e l', parseEncodingName E l = (Fail e, l') -> l' = l.
Proof. intros l e l'. unfold parseEncodingName. destruct (negb _); [congruence|discriminate]. Qed.
Lemma yesno_form : forall l v l', parseStandaloneDeclValue l = (Ret v, l') -> exists b : bool, v = yes_no b /\ l = v ++ l'.
Proof.
  intros l v l' Hv. unfold parseStandaloneDeclValue in Hv. apply pbind_inv in Hv as (y & l1 & H1 & Hv).
  apply pconsume_inv in H1 as [[-> H1]|(-> & -> & _)]; [inversion Hv; subst; exists true; auto|].
  apply pbind_inv in Hv as (n & l1 & H2 & Hv). apply pconsume_inv in H2 as [[-> H2]|(-> & -> & _)]; [inversion Hv; subst; exists false; auto|discriminate].
Qed.
Lemma close_form : forall l b l', pbclose E l = (Ret b, l') -> (b = true /\ l = s_ "?>" ++ l') \/ (b = false /\ l' = l).
Proof.
  intros l b l' Hc. unfold pbclose in Hc. destruct ((bpeek E l =? 63) && (bpeekn E 2 l =? 62)) eqn:Hx; inversion Hc; subst; [left|auto]. split; [auto|].
  apply andb_true_iff in Hx as [H1 H2]. apply Z.eqb_eq in H1, H2.
  destruct l as [|a [|x r]]; cbn [bpeek bpeekn hd nth Nat.pred] in *; try (exfalso; destruct (ok_beof E OK) as [Q|Q]; rewrite Q in *; unfold RuneError in *; lia).
  subst. reflexivity.
Qed.
Lemma quoted_form : forall cb l v l', parseQuotedTextBytes E cb l = (Ret v, l') ->
  exists q l1 l2, (q = 34 \/ q = 39) /\ l = q :: l1 /\ cb l1 = (Ret v, l2) /\ l2 = q :: l'.
Proof.
  intros cb l v l' Hq. unfold parseQuotedTextBytes in Hq. apply pbind_inv in Hq as (q & l1 & H1 & Hq). inversion H1; subst q l1. clear H1.
  destruct ((bpeek E l =? 34) || (bpeek E l =? 39)) eqn:Hx; [|discriminate]. cbn [negb] in Hq.
  assert (Hl : exists q t, (q = 34 \/ q = 39) /\ l = q :: t).
  { apply orb_true_iff in Hx as [Hx|Hx]; apply Z.eqb_eq in Hx; apply (bpeek_is E OK NC) in Hx as [t Hx]; try lia; eauto. }
  destruct Hl as (q & t & Hqq & ->). cbn [bpeek hd] in Hq. apply pbind_inv in Hq as (u & l1 & H1 & Hq). unfold padvance in H1. rewrite advance_1 in H1. inversion H1; subst l1. clear H1.
  apply pbind_inv in Hq as (v1 & l2 & H2 & Hq). apply pbind_inv in Hq as (c & l3 & H3 & Hq). inversion H3; subst c l3. clear H3.
  destruct (Z.eqb_spec (bpeek E l2) q) as [Hp|]; [|discriminate]. cbn [negb] in Hq. apply (bpeek_is E OK NC) in Hp as [t2 ->]; [|lia].
  apply pbind_inv in Hq as (u2 & l3 & H3 & Hq). unfold padvance in H3. rewrite advance_1 in H3. inversion H3; subst l3. inversion Hq; subst. exists q, t, (q :: l'). auto.
Qed.
Lemma named_form : forall name cb l v l', parseNamedAttributeBytes E name cb l = (Ret v, l') ->
  exists b e1 e2 q l1, blanks b /\ blanks e1 /\ blanks e2 /\ (q = 34 \/ q = 39) /\
    l = b ++ name ++ e1 ++ [61] ++ e2 ++ [q] ++ l1 /\ cb l1 = (Ret v, q :: l') /\
    match name ++ e1 ++ [61] with [] => True | c :: _ => blank c = false end.
Proof.
  intros name cb l v l' Hn. unfold parseNamedAttributeBytes in Hn. apply pbind_inv in Hn as (b0 & l1 & H1 & Hn).
  apply skipb_form in H1 as (b & -> & Hb & _ & Hh). apply pbind_inv in Hn as (ok & l2 & H2 & Hn).
  apply pconsume_inv in H2 as [[-> ->]|(-> & _)]; [|discriminate]. cbn [negb] in Hn.
  apply pbind_inv in Hn as (b1 & l3 & H3 & Hn). apply skipb_form in H3 as (e1 & -> & He1 & _ & _).
  apply pbind_inv in Hn as (c & l4 & H4 & Hn). inversion H4; subst c l4. clear H4.
  destruct (Z.eqb_spec (bpeek E l3) 61) as [Hc|]; [|discriminate]. cbn [negb] in Hn. apply (bpeek_is E OK NC) in Hc as [t ->]; [|lia].
  apply pbind_inv in Hn as (u & l4 & H4 & Hn). unfold padvance in H4. rewrite advance_1 in H4. inversion H4; subst l4. clear H4.
  apply pbind_inv in Hn as (b2 & l5 & H5 & Hn). apply skipb_form in H5 as (e2 & -> & He2 & _ & _).
  apply quoted_form in Hn as (q & t & l6 & Hq & -> & Hcb & ->). exists b, e1, e2, q, t. repeat split; auto.
  destruct name as [|x name]; [|exact Hh]. destruct e1; exact Hh.
Qed.
(* an encoding declaration that is refused *)
Lemma encoding_fail : forall l e l', parseNamedAttributeBytes E (s_ "encoding") (parseEncodingName E) l = (Fail e, l') ->
  l' = [] \/ (exists b, blanks b /\ l = b ++ l') \/ exists x, botched x /\ l = x ++ l'.
Proof.
  intros l e l' Hn. unfold parseNamedAttributeBytes in Hn. unfold pbind at 1 in Hn. destruct (skipBlankBytes E l) as [[b0|e0| |] l1] eqn:H1; try discriminate.
  2:{ exfalso. eapply skipb_fail; eauto. }
  apply skipb_form in H1 as (b & -> & Hb & _ & Hh). unfold pbind at 1 in Hn. destruct (pconsume (s_ "encoding") l1) as [[ok|e0| |] l2] eqn:H2; try discriminate.
  2:{ unfold pconsume in H2. destruct (has_prefix _ _); discriminate. }
  apply pconsume_inv in H2 as [[-> ->]|(-> & -> & _)]; cbn [negb] in Hn; [|inversion Hn; subst; right; left; exists b; auto].
  unfold pbind at 1 in Hn. destruct (skipBlankBytes E l2) as [[b1|e0| |] l3] eqn:H3; try discriminate.
  2:{ exfalso. eapply skipb_fail; eauto. }
  apply skipb_form in H3 as (e1 & -> & He1 & _ & _).
  unfold pbind at 1, pbpeek at 1 in Hn. destruct (Z.eqb_spec (bpeek E l3) 61) as [Hc|]; cbn [negb] in Hn.
  2:{ inversion Hn; subst. right. right. exists (b ++ s_ "encoding" ++ e1). split; [constructor; auto|]. rewrite <- !app_assoc. reflexivity. }
  apply (bpeek_is E OK NC) in Hc as [t ->]; [|lia]. unfold pbind at 1, padvance at 1 in Hn. rewrite advance_1 in Hn.
  unfold pbind at 1 in Hn. destruct (skipBlankBytes E t) as [[b2|e0| |] l5] eqn:H5; try discriminate.
  2:{ exfalso. eapply skipb_fail; eauto. }
  apply skipb_form in H5 as (e2 & -> & He2 & _ & _). unfold parseQuotedTextBytes in Hn. unfold pbind at 1, pbpeek at 1 in Hn.
  destruct ((bpeek E l5 =? 34) || (bpeek E l5 =? 39)) eqn:Hx; cbn [negb] in Hn.
  2:{ inversion Hn; subst. right. right. exists (b ++ s_ "encoding" ++ e1 ++ [61] ++ e2). split; [apply bo_equal; auto|]. rewrite <- !app_assoc. reflexivity. }
  assert (Hl : exists q t, (q = 34 \/ q = 39) /\ l5 = q :: t).
  { apply orb_true_iff in Hx as [Hx|Hx]; apply Z.eqb_eq in Hx; apply (bpeek_is E OK NC) in Hx as [t Hx]; try lia; eauto. }
  destruct Hl as (q & t & Hqq & ->). cbn [bpeek hd] in Hn. unfold pbind at 1, padvance at 1 in Hn. rewrite advance_1 in Hn.
  unfold pbind at 1 in Hn. destruct (parseEncodingName E t) as [[v|e0| |] l6] eqn:H6; try discriminate.
  - unfold pbind at 1, pbpeek at 1 in Hn. destruct (Z.eqb_spec (bpeek E l6) q) as [Hp|]; cbn [negb] in Hn.
    + unfold pbind, padvance, pret in Hn. discriminate.
    + inversion Hn; subst l'. apply encname_form in H6 as [H6|(z & -> & Hv & Hz)]; [auto|]. right. right.
      exists (b ++ s_ "encoding" ++ e1 ++ [61] ++ e2 ++ [q] ++ v ++ z). split; [apply bo_value; auto|]. rewrite <- !app_assoc. reflexivity.
  - apply encname_fail in H6. inversion Hn; subst. right. right. exists (b ++ s_ "encoding" ++ e1 ++ [61] ++ e2 ++ [q]).
    split; [apply bo_quote; auto|]. rewrite <- !app_assoc. reflexivity.
Qed.
Lemma standalone_form : forall l sa l', parseStandaloneDecl E l = (Ret sa, l') ->
  exists y ss, l = ss ++ l' /\ lpseudo "standalone" (yes_no y) ss /\ sa = (if y : bool then StandaloneExplicitYes else StandaloneExplicitNo).
Proof.
  intros l sa l' Hs. unfold parseStandaloneDecl in Hs. apply pbind_inv in Hs as (v & l1 & H1 & Hs). inversion Hs; subst. clear Hs.
  apply named_form in H1 as (b & e1 & e2 & q & l2 & Hb & He1 & He2 & Hq & -> & Hcb & _). apply yesno_form in Hcb as (y & -> & ->).
  exists y, (b ++ s_ "standalone" ++ e1 ++ [61] ++ e2 ++ [q] ++ yes_no y ++ [q]). split; [rewrite <- !app_assoc; reflexivity|]. split; [constructor; auto|].
  destruct y; reflexivity.
Qed.
Lemma pseudo_of : forall name v b e1 e2 q, b <> [] -> blanks b -> blanks e1 -> blanks e2 -> q = 34 \/ q = 39 ->
  pseudo name v (b ++ s_ name ++ e1 ++ [61] ++ e2 ++ [q] ++ v ++ [q]).
Proof. intros. constructor; auto. Qed.

Definition sa_of (sa : option bool) : Z := match sa with None => StandaloneImplicitNo | Some true => StandaloneExplicitYes | Some false => StandaloneExplicitNo end.
Lemma xmldecl_form : forall l x l', parseXMLDecl E l = (Ret x, l') ->
  exists h enc sa, l = h ++ l' /\ lheader all h (xd_version x) enc sa /\
    xd_encoding x = match enc with Some n => n | None => [] end /\ xd_standalone x = sa_of sa.
Proof.
  intros l x l' Hx. unfold parseXMLDecl in Hx. apply pbind_inv in Hx as (ok & l1 & H1 & Hx). apply pconsume_inv in H1 as [[-> ->]|(-> & _)]; [|discriminate]. cbn [negb] in Hx.
  apply pbind_inv in Hx as (b0 & l2 & H2 & Hx). apply skipb_form in H2 as (b & -> & Hb & Hne & Hh). destruct b0; [|discriminate]. cbn [negb] in Hx. specialize (Hne eq_refl).
  apply pbind_inv in Hx as (v & l3 & H3 & Hx). apply pwrap_inv in H3. apply named_form in H3 as (b' & e1 & e2 & q & l4 & Hb' & He1 & He2 & Hq & -> & Hcb & _).
  apply version_form in Hcb as [-> Hv].
  set (sv := (b ++ b') ++ s_ "version" ++ e1 ++ [61] ++ e2 ++ [q] ++ v ++ [q]).
  assert (Hsv : pseudo "version" v sv).
  { apply pseudo_of; auto; [destruct b; [congruence|discriminate]|apply Forall_app; auto]. }
  assert (Hl : forall r, s_ "<?xml" ++ b ++ b' ++ s_ "version" ++ e1 ++ [61] ++ e2 ++ [q] ++ v ++ q :: r = s_ "<?xml" ++ sv ++ r).
  { intros r. unfold sv. rewrite <- !app_assoc. reflexivity. }
  rewrite Hl. clear Hl. clearbody sv. clear b b' Hb Hb' Hne Hh e1 e2 He1 He2 q Hq.
  apply pbind_inv in Hx as (c & l5 & H5 & Hx). inversion H5; subst c l5. clear H5.
  destruct (isBlankCh (bpeek E l3)) eqn:Hbl; cbn [negb] in Hx.
  2:{ apply pbind_inv in Hx as (fin & l5 & H5 & Hx). apply close_form in H5 as [[-> ->]|[-> _]]; [|discriminate]. inversion Hx; subst. cbn [xd_version xd_encoding xd_standalone].
      exists (s_ "<?xml" ++ sv ++ s_ "?>"), None, None. split; [rewrite <- !app_assoc; reflexivity|]. split; [|auto].
      apply lh_strict. apply (xd v sv None [] None []); auto. }
  apply pbind_inv in Hx as (r & l5 & H5 & Hx). cbv zeta in Hx.
  assert (Hrest : forall enc y l', pbind (parseStandaloneDecl E) (fun sa => pbind (pbclose E) (fun fin : bool => if fin then pret {| xd_version := v; xd_encoding := enc; xd_standalone := sa |} else pfailw "XML declaration not closed")) l5 = (Ret y, l') ->
    exists sa ss, l5 = ss ++ s_ "?>" ++ l' /\ lpseudo "standalone" (yes_no sa) ss /\ y = {| xd_version := v; xd_encoding := enc; xd_standalone := sa_of (Some sa) |}).
  { clear Hx. intros enc y l0 Hx. apply pbind_inv in Hx as (sa & l6 & H6 & Hx). apply standalone_form in H6 as (yy & ss & -> & Hss & ->).
    apply pbind_inv in Hx as (fin & l7 & H7 & Hx). apply close_form in H7 as [[-> ->]|[-> _]]; [|discriminate]. inversion Hx; subst. exists yy, ss. destruct yy; auto. }
  apply ptry_inv in H5 as [(n & -> & H5)|(e & -> & H5)].
  - apply named_form in H5 as (b & e1 & e2 & q & l6 & Hb & He1 & He2 & Hq & Hl3 & Hcb & Hhd).
    assert (Hbn : b <> []).
    { intros ->. rewrite Hl3 in Hbl. cbn [app] in Hbl. discriminate. }
    apply encname_form in Hcb as [Hcb|(z & -> & Hn & Hz)]; [discriminate|].
    set (se := b ++ s_ "encoding" ++ e1 ++ [61] ++ e2 ++ [q] ++ n ++ z ++ [q]).
    assert (Hl : l3 = se ++ l5) by (rewrite Hl3; unfold se; rewrite <- !app_assoc; reflexivity). clear Hl3.
    apply pbind_inv in Hx as (fin & l7 & H7 & Hx). apply close_form in H7 as [[-> ->]|[-> ->]].
    + inversion Hx; subst. cbn [xd_version xd_encoding xd_standalone]. exists (s_ "<?xml" ++ sv ++ se ++ s_ "?>"), (Some n), None.
      split; [rewrite <- !app_assoc; reflexivity|]. split; [|auto]. destruct Hz as [->| ->].
      * apply lh_strict. apply (xd v sv (Some n) se None []); auto. split; [auto|]. apply pseudo_of; auto.
      * unfold se. apply (lh_nul all v sv n b e1 e2 q None []); auto. exact I.
    + apply Hrest in Hx as (sa & ss & -> & Hss & ->). cbn [xd_version xd_encoding xd_standalone]. exists (s_ "<?xml" ++ sv ++ se ++ ss ++ s_ "?>"), (Some n), (Some sa).
      split; [rewrite Hl, <- !app_assoc; reflexivity|]. split; [|auto]. destruct Hz as [->| ->].
      * apply lh_tight; auto; [|exact I]. apply pseudo_of; auto.
      * unfold se. apply (lh_nul all v sv n b e1 e2 q (Some sa) ss); auto. exact I.
  - assert (Hx' : pbind (parseStandaloneDecl E) (fun sa => pbind (pbclose E) (fun fin : bool => if fin then pret {| xd_version := v; xd_encoding := []; xd_standalone := sa |} else pfailw "XML declaration not closed")) l5 = (Ret x, l')).
    { destruct e; try exact Hx. destruct (String.eqb _ _); [discriminate|exact Hx]. }
    clear Hx. apply Hrest in Hx' as (sa & ss & -> & Hss & ->). cbn [xd_version xd_encoding xd_standalone].
    apply encoding_fail in H5 as [H5|[(b & Hb & Hl3)|(y & Hy & ->)]].
    + apply app_eq_nil in H5 as [_ H5]. discriminate.
    + inversion Hss as [b0 e1 e2 q Hb0 He1 He2 Hq Hs]. subst ss.
      set (s1 := (b ++ b0) ++ s_ "standalone" ++ e1 ++ [61] ++ e2 ++ [q] ++ yes_no sa ++ [q]).
      exists (s_ "<?xml" ++ sv ++ [] ++ s1 ++ s_ "?>"), None, (Some sa).
      split; [rewrite Hl3; unfold s1; cbn [app]; rewrite <- !app_assoc; cbn [app]; rewrite <- !app_assoc; reflexivity|]. split; [|auto]. apply lh_strict.
      apply (xd v sv None [] (Some sa) s1); auto. apply pseudo_of; auto; [|apply Forall_app; auto].
      intros Hn. apply app_eq_nil in Hn as [-> ->]. rewrite Hl3 in Hbl. cbn [app] in Hbl. discriminate.
    + exists (s_ "<?xml" ++ sv ++ y ++ ss ++ s_ "?>"), None, (Some sa). split; [rewrite <- !app_assoc; reflexivity|]. split; [|auto]. apply lh_botched; auto. exact I.
Qed.
End S.
