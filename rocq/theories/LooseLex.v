(* Whatever the scanners of Scan.v accept is in the grammar of Loose.v. *)
From Verif Require Import Base Utf8 Utf8Proofs Encoding XmlSpec EscapeProofs Scan ScanProofs LexProofs Parser Grammar TextProofs Local Loose.
From Coq Require Import ZifyBool.

Definition all (x : leniency) : Prop := True.

Lemma pbind_inv : forall A B (p : P A) (f : A -> P B) l b l2, pbind p f l = (Ret b, l2) ->
  exists a l1, p l = (Ret a, l1) /\ f a l1 = (Ret b, l2).
Proof. intros A B p f l b l2 H. unfold pbind in H. destruct (p l) as [[a|e| |] l1]; try discriminate. eauto. Qed.
Lemma pwrap_inv : forall A (p : P A) l a l', pwrap p l = (Ret a, l') -> p l = (Ret a, l').
Proof. intros A p l a l' H. unfold pwrap in H. destruct (p l) as [[x|e| |] l1]; try discriminate. auto. Qed.
Lemma por_else_inv : forall A (p : P A) e l a l', por_else p e l = (Ret a, l') -> p l = (Ret a, l').
Proof. intros A p e l a l' H. unfold por_else in H. destruct (p l) as [[x|e1| |] l1]; try discriminate. auto. Qed.
Lemma ptry_inv : forall A (p : P A) l r l', ptry p l = (Ret r, l') ->
  (exists a, r = inr a /\ p l = (Ret a, l')) \/ (exists e, r = inl e /\ p l = (Fail e, l')).
Proof. intros A p l r l' H. unfold ptry in H. destruct (p l) as [[x|e1| |] l1]; inversion H; eauto. Qed.
Lemma pconsume_inv : forall p l b l', pconsume p l = (Ret b, l') ->
  (b = true /\ l = p ++ l') \/ (b = false /\ l' = l /\ has_prefix p l = false).
Proof.
  intros p l b l' H. unfold pconsume in H. destruct (has_prefix p l) eqn:Hp; inversion H; subst; auto.
  left. split; auto. apply has_prefix_true in Hp as [r ->]. rewrite skipn_app, skipn_all, Nat.sub_diag. reflexivity.
Qed.

Section S.
Variable E : env.
Hypothesis OK : env_ok E.
Hypothesis NC : forall c, isLetter E c || isDigit E c = true -> xml_char c = true.
Hypothesis OV : forall n l, over E n l = [].

Lemma peek_is : forall l c, 0 < c < 60000 -> peek E l = c -> exists t, l = c :: t.
Proof.
  intros [|x t] c Hc Hp; cbn [peek hd] in Hp; [|subst; eauto].
  destruct (ok_eofr E OK) as [Q|Q]; rewrite Q in Hp; unfold RuneError in *; lia.
Qed.
Lemma bpeek_is : forall l c, 0 < c < 60000 -> bpeek E l = c -> exists t, l = c :: t.
Proof.
  intros [|x t] c Hc Hp; cbn [bpeek hd] in Hp; [|subst; eauto].
  destruct (ok_beof E OK) as [Q|Q]; rewrite Q in Hp; unfold RuneError in *; lia.
Qed.

(* ---- names ---- *)
Lemma scanName_form : forall start rest k l v l', scanName E start rest k l = (Ret v, l') ->
  (forall c, start c = true -> c <> RuneError /\ c <> 0) ->
  exists c run z, l = (c :: run) ++ z ++ l' /\ v = utf8 (c :: run) /\ start c = true /\ Forall (fun x => rest x = true) run /\
    (z = [] \/ z = [0]) /\ Z.of_nat (List.length (c :: run)) <= 50000 /\
    (z = [] -> match l' with [] => True | x :: _ => rest x = false end).
Proof.
  intros start rest k l v l' Hs Hst. pose proof Hs as Hs'. apply scanName_inv in Hs'; auto.
  destruct Hs' as (c & run & after & -> & -> & H1 & H2 & H3 & H4 & H5).
  assert (Hl : Z.of_nat (List.length (c :: run)) <= 50000).
  { unfold scanName in Hs. destruct ((_ =? 32) || _ || _ || _); [discriminate|]. cbn [tl] in Hs.
    rewrite takeW_app, dropW_app in Hs by auto.
    destruct (Z.ltb_spec MaxNameLength (Z.of_nat (if peek E after =? 0 then Datatypes.S (Datatypes.S (List.length run)) else Datatypes.S (List.length run)))) as [Hm|Hm]; [discriminate|].
    unfold MaxNameLength in Hm. cbn [List.length]. destruct (peek E after =? 0); lia. }
  destruct after as [|x t].
  - exists c, run, []. cbn [app]. assert (Hn : l' = []).
    { destruct (Z.eq_dec (peek E []) 0) as [Hz|Hz]; [|auto].
      unfold scanName in Hs. destruct ((_ =? 32) || _ || _ || _); [discriminate|]. cbn [tl] in Hs.
      rewrite takeW_app, dropW_app in Hs by auto. rewrite Hz in Hs. cbn [Z.eqb] in Hs. destruct (MaxNameLength <? _); [discriminate|].
      inversion Hs as [Ha]. unfold advance. rewrite app_nil_r. cbn [List.length].
      destruct (Nat.leb_spec (Datatypes.S (Datatypes.S (List.length run))) (Datatypes.S (List.length run))); [lia|]. apply OV. }
    subst l'. repeat split; auto.
  - destruct (Z.eq_dec x 0) as [->|Hx].
    + rewrite (H5 t eq_refl). exists c, run, [0]. repeat split; auto. discriminate.
    + rewrite (H4 Hx). exists c, run, []. repeat split; auto.
Qed.
Lemma start_facts : forall c, isNameStartChar E c = true -> c <> RuneError /\ c <> 0.
Proof. intros c Hc. destruct (startName_not E c OK Hc) as (_ & _ & _ & A & B). auto. Qed.
Lemma start_is : forall c, isNameStartChar E c = true -> name_start E c = true \/ (c = 58 /\ all ColonFirst).
Proof. intros c Hc. unfold isNameStartChar in Hc. unfold name_start. destruct (Z.eq_dec c 58) as [Hx|Hx]; [right; split; [auto|exact I]|]. left. lia. Qed.
Lemma part_is : forall c, ncnameRest E c = true -> name_part E c = true.
Proof. intros c Hc. unfold ncnameRest in Hc. unfold name_part. lia. Qed.
Lemma class_legal : forall c, isLetter E c || isDigit E c || (c =? 95) || (c =? 45) || (c =? 46) || (c =? 58) = true -> legal c = true.
Proof.
  intros c Hc. destruct (isLetter E c || isDigit E c) eqn:Hl.
  - unfold legal. rewrite (NC c Hl). destruct (Z.eqb_spec c 65533) as [->|]; auto.
    change 65533 with RuneError in Hl. rewrite (ok_letter_err E OK), (ok_digit_err E OK) in Hl. discriminate.
  - cbn [orb] in Hc. unfold legal, xml_char. lia.
Qed.
Lemma start_legal : forall c, isNameStartChar E c = true -> legal c = true.
Proof. intros c Hc. apply class_legal. unfold isNameStartChar in Hc. lia. Qed.
Lemma part_legal : forall c, ncnameRest E c = true -> legal c = true.
Proof. intros c Hc. apply class_legal. unfold ncnameRest in Hc. lia. Qed.

Lemma ncname_form : forall l v l', parseNCName E l = (Ret v, l') ->
  exists n z, l = n ++ z ++ l' /\ v = utf8 n /\ lname all E n /\ nul all z.
Proof.
  intros l v l' Hp. apply scanName_form in Hp; [|apply start_facts].
  destruct Hp as (c & run & z & -> & -> & H1 & H2 & H3 & H4 & _). exists (c :: run), z. split; [auto|]. split; [auto|]. split.
  - split; [split; [apply start_is; auto|]|split; auto].
    + eapply Forall_impl; [|exact H2]. apply part_is.
    + constructor; [apply start_legal; auto|]. eapply Forall_impl; [|exact H2]. apply part_legal.
  - destruct H3 as [->| ->]; [left; auto|right; split; [auto|exact I]].
Qed.
Lemma scanName_fail : forall start rest k l e l', scanName E start rest k l = (Fail e, l') -> l' = l.
Proof.
  intros start rest k l e l' Hs. unfold scanName in Hs. destruct ((_ =? 32) || _ || _ || _); [congruence|].
  destruct (MaxNameLength <? _); [congruence|discriminate].
Qed.
Lemma takeW_le : forall (f g : Z -> bool) l, (forall c, f c = true -> g c = true) -> (List.length (takeW f l) <= List.length (takeW g l))%nat /\
  (List.length (takeW f l) = List.length (takeW g l) -> dropW f l = dropW g l).
Proof.
  intros f g l Hf. induction l as [|c l IH]; cbn [takeW dropW List.length]; [auto|].
  destruct (f c) eqn:Hc; [rewrite (Hf c Hc); cbn [List.length]; destruct IH as [A B]; split; [lia|intros; apply B; lia]|].
  destruct (g c); cbn [List.length]; split; auto; lia.
Qed.
(* when parseNCName fails parseName does as well *)
Lemma name_fallback : forall l e, fst (parseNCName E l) = Fail e -> exists e', fst (parseName E l) = Fail e'.
Proof.
  intros l e. unfold parseNCName, parseName, scanName. unfold isNameStartChar.
  destruct ((peek E l =? 32) || (peek E l =? 62) || (peek E l =? 47) || negb (isLetter E (peek E l) || (peek E l =? 95) || (peek E l =? 58))) eqn:Hc;
    [intros _; eexists; reflexivity|].
  assert (Hr : forall c, ncnameRest E c = true -> nameRest E c = true).
  { intros c Hr. rewrite (part_is c Hr) || idtac. pose proof (part_is c Hr) as Hp. destruct (name_part_facts E OK c Hp) as (A1 & A2 & A3 & A4 & A5 & A6).
    unfold ncnameRest in Hr. unfold nameRest, blank in *. lia. }
  destruct (takeW_le (ncnameRest E) (nameRest E) (tl l) Hr) as [L1 L2].
  set (a := List.length (takeW (ncnameRest E) (tl l))) in *. set (b := List.length (takeW (nameRest E) (tl l))) in *.
  destruct (Nat.eq_dec a b) as [He|He].
  - rewrite (L2 He), He. destruct (MaxNameLength <? _); [intros _; eexists; reflexivity|discriminate].
  - destruct (Z.ltb_spec MaxNameLength (Z.of_nat (if peek E (dropW (ncnameRest E) (tl l)) =? 0 then Datatypes.S (Datatypes.S a) else Datatypes.S a))) as [Hm|]; [|discriminate].
    intros _. match goal with |- context [MaxNameLength <? ?x] => destruct (Z.ltb_spec MaxNameLength x) as [|Hn] end; [eexists; reflexivity|].
    exfalso. destruct (peek E (dropW (ncnameRest E) (tl l)) =? 0); destruct (peek E (dropW (nameRest E) (tl l)) =? 0); lia.
Qed.
Lemma qname_form : forall l v w l', parseQName E l = (Ret (v, w), l') ->
  exists q p n, l = q ++ l' /\ lqname all E q p n /\ v = utf8 n /\ w = utf8 p /\ (p = [] -> hd 0 l' <> 58) /\
    (n = [] -> name_part E (hd 0 l') = false).
Proof.
  intros l v w l' Hq. unfold parseQName in Hq. apply pbind_inv in Hq as (r & l1 & H1 & Hq).
  apply ptry_inv in H1 as [(a & -> & H1)|(e & -> & H1)].
  - apply ncname_form in H1 as (n & z & -> & -> & Hn & Hz). apply pbind_inv in Hq as (c & l2 & H2 & Hq). inversion H2; subst c l2. clear H2.
    destruct (Z.eqb_spec (peek E l1) 58) as [H58|H58]; cbn [negb] in Hq.
    + apply peek_is in H58 as [t ->]; [|lia]. apply pbind_inv in Hq as (x & l2 & H2 & Hq). unfold padvance in H2. rewrite advance_1 in H2. inversion H2; subst l2. clear H2.
      apply pbind_inv in Hq as (r & l2 & H2 & Hq). apply ptry_inv in H2 as [(a & -> & H2)|(e & -> & H2)].
      * apply ncname_form in H2 as (m & y & -> & -> & Hm & Hy). inversion Hq; subst. exists (n ++ z ++ [58] ++ m ++ y), n, m.
        split; [rewrite <- !app_assoc; reflexivity|]. split; [constructor; auto|]. repeat split; auto; intros ->; [destruct Hn as [[] _]|destruct Hm as [[] _]].
      * apply scanName_fail in H2. subst l2. apply pbind_inv in Hq as (x0 & l2 & H2 & Hq). unfold parseNmtoken in H2.
        destruct (_ || _) eqn:Hnc; inversion H2; subst. inversion Hq; subst. exists (n ++ z ++ [58]), n, []. split; [rewrite <- !app_assoc; reflexivity|].
        split; [constructor; auto; exact I|]. repeat split; auto; [intros ->; destruct Hn as [[] _]|]. intros _.
        assert (N0 : name_part E 0 = false).
        { unfold name_part. destruct (isLetter E 0 || isDigit E 0) eqn:X; [apply NC in X; discriminate|reflexivity]. }
        destruct l' as [|y l']; [exact N0|]. cbn [peek hd] in *. destruct (Z.eqb_spec y 0) as [->|]; [exact N0|]. cbn [orb] in Hnc.
        unfold isNameChar in Hnc. unfold name_part. destruct (isLetter E y), (isDigit E y); cbn [orb] in *; lia.
    + inversion Hq; subst. exists (n ++ z), [], n. split; [rewrite <- app_assoc; reflexivity|]. split; [constructor; auto|].
      repeat split; auto; [|intros ->; destruct Hn as [[] _]]. intros _ X. apply H58. destruct l'; [discriminate|exact X].
  - destruct (name_fallback l e) as (e' & Hf); [rewrite H1; reflexivity|]. apply scanName_fail in H1. subst l1.
    apply pbind_inv in Hq as (c & l2 & H2 & Hq). inversion H2; subst c l2. destruct (negb (peek E l =? 58)); [|discriminate].
    apply pbind_inv in Hq as (x & l2 & H3 & _). apply por_else_inv in H3. rewrite H3 in Hf. discriminate.
Qed.
(* names as parseName reads them, without colon *)
Lemma name_form : forall l v l', parseName E l = (Ret v, l') ->
  exists n z, l = n ++ z ++ l' /\ v = utf8 n /\ (z = [] \/ z = [0]) /\ legals n /\ Z.of_nat (List.length n) <= 50000 /\
    match n with [] => False | c :: r => isNameStartChar E c = true /\ Forall (fun x => nameRest E x = true) r end.
Proof.
  intros l v l' Hp. apply scanName_form in Hp; [|apply start_facts].
  destruct Hp as (c & run & z & -> & -> & H1 & H2 & H3 & H4 & _). exists (c :: run), z. split; [auto|]. split; [auto|]. split; [auto|]. split; [|split; [auto|split; auto]].
  constructor; [apply start_legal; auto|]. eapply Forall_impl; [|exact H2]. intros x Hx. cbv beta in Hx.
  rewrite nameRest_class in Hx by auto. apply class_legal. lia.
Qed.

(* ---- character references ---- *)
Lemma crefLoop_form : forall acc base val, acc_ok acc base val -> forall l n v l', crefLoop acc (int32 n) l = (Some v, l') ->
  l' = [] \/ exists rest m, l' = 59 :: rest /\ number base val true n l = Some (m, rest) /\ v = int32 m.
Proof.
  intros acc base val Hacc. induction l as [|c t IH]; intros n v l' Hl; cbn [crefLoop] in Hl; [inversion Hl; auto|].
  cbn [number]. destruct (Z.eqb_spec c 59) as [->|Hc].
  - inversion Hl; subst. right. exists t, n. auto.
  - rewrite Hacc in Hl by auto. destruct (val c) as [d|]; [|discriminate]. apply IH; auto.
Qed.
Lemma wraps_is : forall v, int32 v = wraps v. Proof. reflexivity. Qed.
Lemma charref_form : forall l x l', parseCharRef E l = (Ret x, l') -> l' = [] \/ exists t, l = 38 :: t /\ lref all t x l'.
Proof.
  intros l x l' Hp. unfold parseCharRef in Hp. apply pbind_inv in Hp as (hex & l1 & H1 & Hp).
  apply pbind_inv in Hp as (dec & l2 & H2 & Hp). destruct dec; [|discriminate]. cbn [negb] in Hp.
  destruct (crefLoop (if hex then accHex else accDec) 0 l2) as [[v|] l3] eqn:Hc; [|discriminate].
  destruct (isChar v && (v <=? 1114111)) eqn:Hv; [|discriminate]. inversion Hp; subst x. clear Hp.
  assert (Hch : isChar v = true) by lia.
  assert (Hform : forall base val acc, acc_ok acc base val -> crefLoop acc 0 l2 = (Some v, l3) -> l3 = [] \/
            exists rest m, l3 = 59 :: rest /\ number base val false 0 l2 = Some (m, rest) /\ v = int32 m).
  { intros base val acc Hacc Hl. change 0 with (int32 0) in Hl at 1. destruct (crefLoop_form acc base val Hacc _ _ _ _ Hl) as [|(rest & m & A & B & C)]; [auto|].
    right. exists rest, m. split; [auto|]. split; [|auto]. destruct l2 as [|c t]; [discriminate|]. cbn [number] in *.
    destruct (c =? 59); [|auto]. inversion B; subst. discriminate. }
  assert (Hd : l3 = [] \/ exists rest m, l3 = 59 :: rest /\ refNumber hex l2 = Some (m, rest) /\ v = int32 m).
  { destruct hex; [apply (Hform 16 hex_val accHex)|apply (Hform 10 dec_val accDec)]; auto; [apply accHex_ok|apply accDec_ok]. }
  destruct Hd as [->|(rest & m & -> & Hn & ->)].
  - left. unfold peek, hd. destruct (ok_eofr E OK) as [Q|Q]; rewrite Q; reflexivity.
  - right. cbn [peek hd]. rewrite Z.eqb_refl, advance_1. rewrite <- legal_is in Hch.
    apply pconsume_inv in H1 as [[-> ->]|(-> & -> & _)].
    + inversion H2; subst l2. exists (35 :: 120 :: l1). split; [reflexivity|]. apply lr_hex; auto. exact I.
    + apply pconsume_inv in H2 as [[_ ->]|[Hf _]]; [|discriminate]. exists (35 :: l2). split; [reflexivity|]. apply lr_dec; auto. exact I.
Qed.

(* ---- comments ---- *)
Lemma commentLoop_form : forall t q r cs, commentLoop q r t = Some cs ->
  exists rest, t = cs ++ rest /\ legals cs /\ (forall x y, q :: r :: cs = x ++ s_ "--" ++ y -> y = []) /\
    match rest with [] => True | c :: _ => legal c = false \/ (c = 62 /\ exists x, q :: r :: cs = x ++ s_ "--") end.
Proof.
  induction t as [|c t IH]; intros q r cs Hc.
  - inversion Hc; subst. exists []. split; [auto|]. split; [constructor|]. split; [|exact I].
    intros x y Hx. destruct x as [|a [|b x]]; cbn in Hx; inversion Hx; auto. destruct x; discriminate.
  - rewrite commentLoop_step in Hc. rewrite <- legal_is in Hc.
    assert (Hnil : forall y x, q :: r :: [] = x ++ s_ "--" ++ y -> y = []).
    { intros y x Hx. destruct x as [|a [|b x]]; cbn in Hx; inversion Hx; auto. destruct x; discriminate. }
    destruct (negb (legal c) || ((q =? 45) && (r =? 45) && (c =? 62))) eqn:Hs.
    + inversion Hc; subst. exists (c :: t). split; [auto|]. split; [constructor|]. split; [eauto|].
      destruct (legal c) eqn:Hl; [right|left; auto]. assert (q = 45 /\ r = 45 /\ c = 62) as (-> & -> & ->) by lia. split; [auto|]. exists []. reflexivity.
    + destruct ((q =? 45) && (r =? 45)) eqn:Hh; [discriminate|].
      destruct (commentLoop r c t) as [cs'|] eqn:Hr; [|discriminate]. inversion Hc; subst. clear Hc.
      destruct (IH _ _ _ Hr) as (rest & -> & A & B & C). exists rest. split; [reflexivity|]. split; [constructor; [destruct (legal c); auto; lia|auto]|]. split.
      * intros x y Hx. destruct x as [|a x]; cbn [app] in Hx; inversion Hx as [[H1 H2]]; [subst; discriminate|].
        apply (B x y). auto.
      * destruct rest as [|d rest]; [auto|]. destruct C as [C|[C (x & Hx)]]; [auto|right; split; [auto|]]. exists (q :: x). rewrite Hx. reflexivity.
Qed.
Lemma scanComment_form : forall l v l', scanComment E l = (Ret v, l') ->
  (exists b b', l = s_ "<!--" ++ b ++ s_ "-->" ++ l' /\ comment_text b /\ eol b b' /\ v = utf8 b') \/
  (exists b c, l = s_ "<!--" ++ b ++ c :: l' /\ open_comment b v /\ legal c = false) \/
  (exists b, l = s_ "<!--" ++ b /\ l' = [] /\ open_comment b v).
Proof.
  intros l v l' Hp. pose proof Hp as Hp0. unfold scanComment in Hp. apply pbind_inv in Hp as (ok1 & l1 & H1 & Hp). apply pconsume_inv in H1 as [[-> ->]|(-> & _)]; [|discriminate].
  cbn [negb] in Hp. destruct (negb (isChar (peekn E 1 l1))) eqn:Hq; [discriminate|]. destruct (negb (isChar (peekn E 2 l1))) eqn:Hr; [discriminate|].
  destruct l1 as [|q [|r t]].
  { exfalso. unfold peekn in Hq. cbn [pred nth] in Hq. destruct (ok_eofr E OK) as [Q|Q]; rewrite Q in Hq; discriminate. }
  { exfalso. unfold peekn in Hr. cbn [pred nth] in Hr. destruct (ok_eofr E OK) as [Q|Q]; rewrite Q in Hr; discriminate. }
  unfold peekn in *. cbn [pred nth tl] in *. destruct (commentLoop q r t) as [cs|] eqn:Hc; [|discriminate].
  destruct (commentLoop_form _ _ _ _ Hc) as (rest & -> & A & B & C). rewrite <- legal_is in Hq, Hr.
  assert (Hall : legals (q :: r :: cs)) by (constructor; [destruct (legal q); auto|constructor; [destruct (legal r); auto|auto]]).
  set (b := q :: r :: cs) in *.
  assert (Hopen : open_comment b (crlf (firstn (List.length (utf8 b) - 2) (utf8 b)))).
  { split; [auto|]. split; [auto|].
    assert (Hlen : (2 <= List.length (utf8 b))%nat).
    { unfold b. cbn [utf8 flat_map]. rewrite !app_length.
      assert (Hne : forall c, (1 <= List.length (encode_rune c))%nat) by (intros c; pose proof (encode_nonempty c); destruct (encode_rune c); [congruence|cbn; lia]).
      pose proof (Hne q). pose proof (Hne r). lia. }
    pose proof (firstn_skipn (List.length (utf8 b) - 2) (utf8 b)) as Hu.
    assert (Hs : List.length (skipn (List.length (utf8 b) - 2) (utf8 b)) = 2%nat) by (rewrite skipn_length; lia).
    destruct (skipn (List.length (utf8 b) - 2) (utf8 b)) as [|y1 [|y2 [|y3 y]]] eqn:Hk; try discriminate.
    exists q, r, cs, (firstn (List.length (utf8 b) - 2) (utf8 b)), y1, y2. split; [reflexivity|]. split; [symmetry; exact Hu|]. apply TextProofs.eol_total. }
  inversion Hp as [[Hv Hl]]. destruct rest as [|c rest].
  - right; right. exists b. rewrite app_nil_r. split; [reflexivity|]. split; [|unfold b in *; exact Hopen].
    unfold advance. match goal with |- (if ?g then _ else _) = _ => assert (g = false) as -> by (apply Nat.leb_gt; cbn [List.length]; rewrite ?app_length; cbn [List.length]; lia) end. apply OV.
  - assert (Ha : advance E (List.length cs + 3) (q :: r :: cs ++ c :: rest) = rest).
    { replace (q :: r :: cs ++ c :: rest) with ((q :: r :: cs ++ [c]) ++ rest) by (cbn [app]; rewrite <- app_assoc; reflexivity).
      replace (List.length cs + 3)%nat with (List.length (q :: r :: cs ++ [c])) by (cbn [List.length]; rewrite app_length; cbn [List.length]; lia). apply advance_app. }
    rewrite Ha. destruct C as [C|[-> (x & Hx)]].
    + right; left. exists b, c. split; [reflexivity|]. split; [exact Hopen|auto].
    + left. exists x, (crlf x). change (b = x ++ s_ "--") in Hx.
      assert (Hcx : comment_text x).
      { split; [rewrite Hx in Hall; unfold legals in *; apply Forall_app in Hall; apply Hall|]. split.
        - intros (y & z & Hyz). assert (Hn : z ++ s_ "--" = []) by (apply (B y); rewrite Hx, Hyz, <- !app_assoc; reflexivity). destruct z; discriminate.
        - destruct x as [|x0 x] using rev_ind; [auto|]. right. rewrite last_last. intros ->.
          assert (Hn : s_ "-" = []) by (apply (B x); rewrite Hx, <- !app_assoc; reflexivity). discriminate. }
      split; [change (s_ "<!--" ++ b ++ 62 :: rest = s_ "<!--" ++ x ++ s_ "-->" ++ rest); rewrite Hx, <- !app_assoc; reflexivity|].
      split; [auto|]. split; [apply TextProofs.eol_total|].
      change (crlf (firstn (List.length (utf8 b) - 2) (utf8 b)) = utf8 (crlf x)). rewrite Hx, utf8_app, app_length. change (List.length (utf8 (s_ "--"))) with 2%nat.
      replace (List.length (utf8 x) + 2 - 2)%nat with (List.length (utf8 x)) by lia. rewrite firstn_app, firstn_all, Nat.sub_diag. cbn [firstn]. rewrite app_nil_r. apply crlf_utf8.
Qed.

(* ---- CDATA sections ---- *)
Lemma cdataLoop_form : forall l cs, charDataLoop E true l = CDOk cs -> exists rest, l = cs ++ rest /\ ~ In 0 cs /\ ~ contains (s_ "]]>") cs.
Proof.
  induction l as [|c t IH]; intros cs Hl; cbn [charDataLoop] in Hl.
  - destruct (eofr E =? 0); inversion Hl. exists []. split; [auto|]. split; [intros []|]. intros (a & b & Hab). destruct a; discriminate.
  - assert (Hnil : ~ contains (s_ "]]>") []) by (intros (a & b & Hab); destruct a; discriminate).
    destruct (Z.eqb_spec c 0) as [->|Hc]; [inversion Hl; exists (0 :: t); auto|]. cbn [negb andb] in Hl.
    destruct ((c =? 93) && (peekn E 1 t =? 93) && (peekn E 2 t =? 62)) eqn:He; [inversion Hl; exists (c :: t); auto|].
    destruct (charDataLoop E true t) as [cs'| |] eqn:Ht; try discriminate. inversion Hl; subst. destruct (IH _ eq_refl) as (rest & -> & A & B).
    exists rest. split; [reflexivity|]. split; [intros [Hi|Hi]; auto|]. intros (a & b & Hab). destruct a as [|a0 a].
    + cbn in Hab. inversion Hab; subst. cbn in He. discriminate.
    + apply B. inversion Hab; subst. exists a, b. auto.
Qed.
Lemma cdata_form : forall l t l', scanCharData E true l = (Ret t, l') ->
  exists b, l = b ++ l' /\ b <> [] /\ ~ In 0 b /\ ~ contains (s_ "]]>") b /\ t = utf8 (crlf b).
Proof.
  intros l t l' Hs. unfold scanCharData in Hs. destruct (charDataLoop E true l) as [cs| |] eqn:Hl; try discriminate.
  destruct (cdataLoop_form l cs Hl) as (rest & -> & A & B). destruct cs as [|c cs]; [discriminate|].
  rewrite advance_app, crlf_utf8 in Hs. inversion Hs; subst. exists (c :: cs). repeat split; auto. discriminate.
Qed.
(* an illegal character where text is expected is refused *)
Lemma chardata_illegal : forall c t, legal c = false -> fst (scanCharData E false (c :: t)) = Fail (Plain "Invalid char data").
Proof.
  intros c t Hc. unfold scanCharData. cbn [charDataLoop]. rewrite <- legal_is, Hc. cbn [negb andb]. rewrite orb_true_r.
  destruct (c =? 0); reflexivity.
Qed.

(* ---- processing instructions ---- *)
Lemma in_utf8 : forall c n, 0 <= c < 128 -> In c n -> In c (utf8 n).
Proof.
  intros c n Hc Hi. unfold utf8. apply in_flat_map. exists c. split; [auto|].
  rewrite encode_ascii by lia. left; auto.
Qed.
Lemma target_form : forall l v l', parsePITarget E l = (Ret v, l') -> exists n z, l = n ++ z ++ l' /\ v = utf8 n /\ pitarget E n /\ nul all z.
Proof.
  intros l v l' Hp. unfold parsePITarget in Hp. apply pbind_inv in Hp as (nm & l1 & H1 & Hp). apply pwrap_inv in H1.
  apply name_form in H1 as (n & z & -> & -> & Hz & Hl & Hlen & Hn).
  assert (Hx : utf8 n <> s_ "xml" /\ ~ In 58 (utf8 n) /\ l1 = l' /\ v = utf8 n).
  { destruct (str_eqb_spec (utf8 n) (s_ "xml")) as [|Hx]; [discriminate|]. split; [auto|].
    destruct (str_eqb_spec (utf8 n) (s_ "xml-stylesheet")) as [Hy|_]; [inversion Hp; rewrite Hy; split; [cbn; intuition lia|auto]|].
    destruct (str_eqb_spec (utf8 n) (s_ "xml-model")) as [Hy|_]; [inversion Hp; rewrite Hy; split; [cbn; intuition lia|auto]|]. cbn [orb] in Hp.
    destruct (mem_byte 58 (utf8 n)) eqn:Hm; [discriminate|]. apply mem_byte_false in Hm. inversion Hp; auto. }
  destruct Hx as (Hx & H58 & -> & ->). exists n, z. split; [auto|]. split; [auto|].
  assert (Hc : ~ In 58 n) by (intros Hi; apply H58, in_utf8; [lia|auto]).
  split; [|destruct Hz as [->| ->]; [left; auto|right; split; [auto|exact I]]].
  split; [|intros ->; apply Hx; reflexivity]. split; [|split; auto].
  destruct n as [|c r]; [destruct Hn|]. destruct Hn as [H1 H2]. split.
  - unfold isNameStartChar in H1. unfold name_start. assert (c <> 58) by (intros ->; apply Hc; left; auto). lia.
  - rewrite Forall_forall in *. intros x Hi. specialize (H2 x Hi). rewrite nameRest_class in H2 by auto. assert (x <> 58) by (intros ->; apply Hc; right; auto). unfold name_part. lia.
Qed.
Lemma pi_form : forall l t d l', scanPI E l = (Ret (t, d), l') ->
  exists n z, pitarget E n /\ nul all z /\ t = utf8 n /\
    ((l = s_ "<?" ++ n ++ z ++ s_ "?>" ++ l' /\ d = []) \/
     (exists b x, l = s_ "<?" ++ n ++ z ++ b ++ x ++ s_ "?>" ++ l' /\ b <> [] /\ blanks b /\ pidata x /\ d = utf8 x)).
Proof.
  intros l t d l' Hp. unfold scanPI in Hp. apply pbind_inv in Hp as (o1 & l1 & H1 & Hp). apply pconsume_inv in H1 as [[-> ->]|(-> & _)]; [|discriminate].
  cbn [negb] in Hp. apply pbind_inv in Hp as (nm & l2 & H2 & Hp). apply pwrap_inv in H2. apply target_form in H2 as (n & z & -> & -> & Hn & Hz).
  exists n, z. split; [auto|]. split; [auto|]. apply pbind_inv in Hp as (fin & l3 & H3 & Hp). apply pconsume_inv in H3 as [[-> ->]|(-> & -> & _)].
  - inversion Hp; subst. auto.
  - apply pbind_inv in Hp as (c & l3 & H3 & Hp). inversion H3; subst c l3. clear H3.
    destruct (isBlankCh (peek E l2)) eqn:Hb; [|discriminate]. cbn [negb] in Hp.
    apply pbind_inv in Hp as (x0 & l3 & H3 & Hp). inversion H3; subst x0 l3. clear H3.
    apply pbind_inv in Hp as (data & l3 & H3 & Hp). inversion H3; subst data l3. clear H3.
    destruct (piLoop_prefix E (dropW isBlankCh l2)) as (l4 & P1 & P2 & P3).
    set (x := piLoop E (dropW isBlankCh l2)) in *. rewrite P1, advance_app in Hp.
    apply pbind_inv in Hp as (o2 & l5 & H5 & Hp). apply pconsume_inv in H5 as [[-> ->]|(-> & _)]; [|discriminate]. inversion Hp; subst t d l5. clear Hp.
    split; [auto|]. right. exists (takeW isBlankCh l2), x.
    assert (H2 : l2 = takeW isBlankCh l2 ++ x ++ s_ "?>" ++ l') by (rewrite <- P1; symmetry; apply takeW_dropW).
    split; [rewrite H2 at 1; rewrite <- ?app_assoc; reflexivity|]. split.
    { destruct l2 as [|c l2]; cbn [peek hd] in Hb; [destruct (ok_eofr E OK) as [Q|Q]; rewrite Q in Hb; discriminate|]. cbn [takeW]. rewrite Hb. discriminate. }
    split; [apply blanks_is, takeW_all|]. split; [|auto]. split; [apply legals_is; auto|]. split.
    + pose proof (dropW_head isBlankCh l2) as Hh. rewrite P1 in Hh. destruct x as [|x0 x]; [reflexivity|]. cbn [app hd] in *. rewrite blank_is. auto.
    + apply P3. reflexivity.
Qed.
End S.
