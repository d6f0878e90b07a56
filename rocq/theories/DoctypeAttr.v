(* Attributes of a start tag when attribute types and defaults are declared. *)
From Coq Require Import Permutation.
From Verif Require Import Base Utf8 Utf8Proofs Encoding XmlSpec EscapeProofs Scan ScanProofs LexProofs Parser TextProofs Complete.
From Verif Require Import Content Doctype Grammar.
Local Open Scope Z_scope.

Lemma tokens_words : forall s, tokens s = words s.
Proof. reflexivity. Qed.
Lemma spaced_join : forall ws, spaced ws = join ws.
Proof. reflexivity. Qed.

Lemma words_acc_split : forall a cur v, words_acc cur (a ++ 32 :: v) = words_acc cur a ++ words v.
Proof.
  induction a as [|c a IH]; intros cur v; cbn [app words_acc].
  - change (32 =? 32) with true. cbv iota. destruct cur; reflexivity.
  - destruct (c =? 32).
    + destruct cur; [apply IH|]. cbn [app]. f_equal. apply IH.
    + apply IH.
Qed.
Lemma words_split : forall a v, words (a ++ 32 :: v) = words a ++ words v.
Proof. intros. apply words_acc_split. Qed.
Lemma words_trail : forall a v, words ((a ++ [32]) ++ v) = words a ++ words v.
Proof. intros. rewrite <- app_assoc. apply words_split. Qed.

Lemma words_rtrim : forall r, words (rev (rtrim_rev r)) = words (rev r).
Proof.
  induction r as [|c r IH]; [reflexivity|]. cbn [rtrim_rev]. destruct (Z.eqb_spec c 32) as [->|]; [|reflexivity].
  rewrite IH. cbn [rev]. rewrite words_split. cbn. rewrite app_nil_r. reflexivity.
Qed.
Lemma rtrim_words : forall b0, exists w, rtrim (b0 ++ [32]) = Ret w /\ words w = words b0.
Proof.
  intros b0. unfold rtrim. rewrite rev_app_distr. cbn [rev app]. eexists. split; [reflexivity|].
  cbn [rtrim_rev]. change (32 =? 32) with true. cbv iota. rewrite words_rtrim, rev_involutive. reflexivity.
Qed.
(* what has been read so far without references: words with single spaces, and
   one more space when the last character read was white space *)
Definition tidy (b : str) (sp : bool) : Prop :=
  exists ws, Forall isWord ws /\ ((sp = false /\ b = join ws) \/ (sp = true /\ ws <> [] /\ b = join ws ++ [32])).
Lemma join_snoc : forall ws w, ws <> [] -> join (ws ++ [w]) = join ws ++ [32] ++ w.
Proof.
  induction ws as [|x ws IH]; intros w Hne; [congruence|]. destruct ws as [|y ws]; [reflexivity|].
  change ((x :: y :: ws) ++ [w]) with (x :: ((y :: ws) ++ [w])). rewrite (join_cons x ((y :: ws) ++ [w])) by (cbn; discriminate). rewrite IH by discriminate.
  rewrite (join_cons x (y :: ws)) by discriminate. rewrite <- !app_assoc. reflexivity.
Qed.
Lemma join_extend : forall ws w x, join (ws ++ [w ++ x]) = join (ws ++ [w]) ++ x.
Proof.
  intros ws w x. destruct ws as [|y ws]; [reflexivity|]. rewrite !join_snoc by discriminate. rewrite <- !app_assoc. reflexivity.
Qed.
Lemma tidy_word : forall b sp x, tidy b sp -> isWord x -> tidy (b ++ x) false.
Proof.
  intros b sp x (ws & Hw & Hb) Hx. destruct Hb as [[-> ->]|(-> & Hne & ->)].
  - destruct ws as [|w ws] using rev_ind.
    + exists [x]. split; [constructor; auto|]. left; auto.
    + clear IHws. exists (ws ++ [w ++ x]). split; [|left; split; [auto|apply eq_sym, join_extend]].
      apply Forall_app in Hw. destruct Hw as [Hw1 Hw2]. apply Forall_app; split; [auto|]. constructor; [|constructor].
      inversion Hw2 as [|? ? [W1 W2]]; subst. destruct Hx as [X1 X2]. split; [destruct w; [congruence|discriminate]|].
      intros Hi. apply in_app_or in Hi. tauto.
  - exists (ws ++ [x]). split; [apply Forall_app; auto|]. left. split; [auto|]. rewrite join_snoc by auto. rewrite <- app_assoc. reflexivity.
Qed.
Lemma tidy_blank : forall b, tidy b false -> b <> [] -> tidy (b ++ [32]) true.
Proof.
  intros b (ws & Hw & Hb) Hne. destruct Hb as [[_ ->]|(? & _)]; [|discriminate]. exists ws. split; [auto|]. right. split; [auto|].
  split; [|auto]. intros ->. apply Hne. reflexivity.
Qed.
Lemma rtrim_tidy : forall ws, ws <> [] -> Forall isWord ws -> rtrim (join ws ++ [32]) = Ret (join ws).
Proof.
  intros ws Hne Hw. destruct (join_last ws Hne Hw) as (r & c & Hj & Hc). rewrite Hj. unfold rtrim. rewrite rev_app_distr. cbn [rev app].
  rewrite rev_app_distr. cbn [rev app rtrim_rev]. change (32 =? 32) with true. cbv iota.
  destruct (Z.eqb_spec c 32); [contradiction|]. cbn [rev]. rewrite rev_involutive. reflexivity.
Qed.
Lemma encode_word : forall c, blank c = false -> isWord (encode_rune c).
Proof.
  intros c Hc. split; [apply encode_nonempty|]. intros Hi. destruct (encode_high c 32 Hi ltac:(lia)) as [_ ->]. discriminate.
Qed.

Section A.
Variable E : env.
Hypothesis OK : env_ok E.
Variable S : Type.
Variable H : handler S.
Notation st := (Complete.st S).

(* a literal read with normalisation: the words are those of its value; without
   references, single spaces separate them *)
Lemma attlit_norm : forall q lit v, attlit q lit v -> q = 34 \/ q = 39 -> forall n b sp en l tab nd ht s,
  (List.length lit < n)%nat -> (sp = true -> exists b0, b = b0 ++ [32]) ->
  exists w en', attrValueLoop E S H n q true b sp en (st (lit ++ q :: l) tab nd ht s) =
      (Ret (w, en'), st (q :: l) tab nd ht s) /\
    words w = words (b ++ v) /\ en <= en' /\ (tidy b sp -> en' = en -> exists ws, Forall isWord ws /\ w = join ws).
Proof.
  intros q lit v Hlit Hq. induction Hlit as [|c t v Hc Hb Hcq Hc1 Hc2 _ IH|c t v Hb Hcr _ IH|t x t' v Hr Hx1 Hx2 _ IH|t t' v Hr _ IH];
    intros n b sp en l tab nd ht s Hn Hsp; (destruct n as [|n]; [simpl in Hn; lia|]); rewrite attrValueLoop_step.
  - cbn [app]. erewrite bind_ret by apply mpeek_st. rewrite Z.eqb_refl. cbn [orb]. rewrite andb_true_r, app_nil_r. destruct sp.
    + destruct (Hsp eq_refl) as (b0 & ->). destruct (rtrim_words b0) as (w & Hw1 & Hw2). exists w, en.
      split; [erewrite bind_ret by (unfold mlift; rewrite Hw1; reflexivity); reflexivity|].
      split; [rewrite <- (app_nil_r (b0 ++ [32])), words_trail; cbn; rewrite app_nil_r; auto|].
      split; [lia|]. intros (ws & Hws & Hc) _. destruct Hc as [[Hc _]|(_ & Hne & Heq)]; [discriminate|].
      exists ws. split; [auto|]. rewrite Heq, rtrim_tidy in Hw1 by auto. inversion Hw1; auto.
    + exists b, en. split; [reflexivity|]. split; [auto|]. split; [lia|]. intros (ws & Hws & Hc) _.
      destruct Hc as [[_ Hc]|(Hc & _)]; [|discriminate]. eauto.
  - cbn [app]. erewrite bind_ret by apply mpeek_st. rewrite legal_is in Hc. rewrite Hc.
    pose proof (encode_word c Hb) as Hword. unfold blank in Hb. destruct (Z.eqb_spec c q); [contradiction|]. destruct (Z.eqb_spec c 60); [contradiction|].
    destruct (Z.eqb_spec c 38); [contradiction|]. cbn [orb negb].
    replace ((c =? 32) || (c =? 13) || (c =? 10) || (c =? 9)) with false by lia.
    erewrite bind_ret by apply madv1_st.
    destruct (IH n (b ++ encode_rune c) false en l tab nd ht s ltac:(simpl in Hn; lia) ltac:(discriminate)) as (w & en' & R1 & R2 & R3 & R4).
    exists w, en'. split; [exact R1|]. split; [|split; [auto|]].
    + rewrite R2. unfold utf8. cbn [flat_map]. rewrite app_nil_r, app_assoc. reflexivity.
    + intros Ht He. apply R4; auto. eapply tidy_word; eauto.
  - cbn [app]. erewrite bind_ret by apply mpeek_st. unfold blank in Hb.
    assert (Hch : isChar c = true).
    { assert (c = 32 \/ c = 9 \/ c = 10 \/ c = 13) as Hcc by lia. destruct Hcc as [->|[->|[->| ->]]]; reflexivity. }
    rewrite Hch. destruct (Z.eqb_spec c q); [lia|]. destruct (Z.eqb_spec c 60); [lia|].
    destruct (Z.eqb_spec c 38); [lia|]. cbn [orb negb].
    replace ((c =? 32) || (c =? 13) || (c =? 10) || (c =? 9)) with true by lia. rewrite orb_false_r. cbn [orb]. cbv zeta.
    erewrite bind_ret by apply madv1_st.
    assert (Hlen : (List.length t < n)%nat) by (simpl in Hn; lia).
    destruct b as [|b0 br].
    + cbn [negb andb]. assert (sp = false) as -> by (destruct sp; auto; destruct (Hsp eq_refl) as ([|? ?] & ?); discriminate).
      destruct (IH n [] false en l tab nd ht s Hlen ltac:(discriminate)) as (w & en' & R1 & R2 & R3 & R4).
      exists w, en'. split; [exact R1|]. split; [|auto]. rewrite R2. reflexivity.
    + set (b := b0 :: br) in *. cbn [negb andb]. destruct sp; cbn [negb].
      * destruct (IH n b true en l tab nd ht s Hlen Hsp) as (w & en' & R1 & R2 & R3 & R4).
        exists w, en'. split; [exact R1|]. split; [|auto]. rewrite R2. destruct (Hsp eq_refl) as (b1 & ->).
        rewrite words_trail. rewrite words_split. rewrite <- (app_nil_r (b1 ++ [32])), words_trail. cbn. rewrite app_nil_r. reflexivity.
      * destruct (IH n (b ++ [32]) true en l tab nd ht s Hlen ltac:(eauto)) as (w & en' & R1 & R2 & R3 & R4).
        exists w, en'. split; [exact R1|]. split; [rewrite R2, <- app_assoc; reflexivity|]. split; [auto|].
        intros Ht He. apply R4; auto. apply tidy_blank; auto. discriminate.
  - cbn [app]. erewrite bind_ret by apply mpeek_st. change (isChar 38) with true.
    destruct (Z.eqb_spec 38 q); [lia|]. change (38 =? 60) with false. change (38 =? 38) with true. cbn [orb negb].
    assert (Hlen : (List.length t' < n)%nat) by (apply reference_shrinks in Hr; simpl in Hn; lia).
    pose proof (reference_app t x t' (q :: l) Hr) as Hr'.
    destruct (reference_cases _ _ _ Hr') as [Hcase|(nm & Ht & Hp & Hnm)].
    + destruct (charref_st E _ x _ Hr' Hx2 Hcase) as [Hc1 Hc2].
      erewrite bind_ret. 2:{ apply lift_st. unfold ppeekn, peekn. cbn [pred]. reflexivity. }
      destruct (t ++ q :: l) as [|c t0] eqn:Htt; [discriminate Hc2|]. cbn [nth] in *. subst c. rewrite Z.eqb_refl.
      erewrite bind_ret. 2:{ apply wrap_ret, lift_st. apply Hc1. }
      destruct (Z.eqb_spec x 38); [contradiction|].
      destruct (IH n (b ++ encode_rune x) false (en + 1) l tab nd ht s Hlen ltac:(discriminate)) as (w & en' & R1 & R2 & R3 & R4).
      exists w, en'. split; [exact R1|]. split; [|split; [lia|intros; lia]].
      rewrite R2. unfold utf8. cbn [flat_map]. rewrite app_nil_r, app_assoc. reflexivity.
    + rewrite Ht. erewrite bind_ret. 2:{ apply lift_st. unfold ppeekn, peekn. cbn [pred]. reflexivity. }
      destruct (five_names E OK nm Hnm) as (_ & _ & H35).
      assert (Hnn : nm <> []) by (intros ->; discriminate Hp).
      replace (nth 1 (38 :: nm ++ 59 :: t' ++ q :: l) (eofr E) =? 35) with false.
      2:{ destruct nm; [congruence|]. cbn [app nth hd] in *. lia. }
      erewrite bind_ret. 2:{ apply wrap_ret. apply (entityref_st E OK S H nm x (t' ++ q :: l)); auto. }
      cbn [e_type e_content]. rewrite Z.eqb_refl.
      replace (str_eqb [x] [38]) with false by (cbn; lia).
      destruct (predefined_char _ _ Hp Hnm) as [Hx3 _].
      destruct (IH n (b ++ [x]) false (en + 1) l tab nd ht s Hlen ltac:(discriminate)) as (w & en' & R1 & R2 & R3 & R4).
      exists w, en'. split; [exact R1|]. split; [|split; [lia|intros; lia]].
      rewrite R2. unfold utf8. cbn [flat_map]. rewrite encode_ascii by lia. rewrite app_nil_r, app_assoc. reflexivity.
  - cbn [app]. erewrite bind_ret by apply mpeek_st. change (isChar 38) with true.
    destruct (Z.eqb_spec 38 q); [lia|]. change (38 =? 60) with false. change (38 =? 38) with true. cbn [orb negb].
    assert (Hlen : (List.length t' < n)%nat) by (apply reference_shrinks in Hr; simpl in Hn; lia).
    pose proof (reference_app t 38 t' (q :: l) Hr) as Hr'.
    destruct (reference_cases _ _ _ Hr') as [Hcase|(nm & Ht & Hp & Hnm)].
    + destruct (charref_st E _ 38 _ Hr' ltac:(lia) Hcase) as [Hc1 Hc2].
      erewrite bind_ret. 2:{ apply lift_st. unfold ppeekn, peekn. cbn [pred]. reflexivity. }
      destruct (t ++ q :: l) as [|c t0] eqn:Htt; [discriminate Hc2|]. cbn [nth] in *. subst c. rewrite Z.eqb_refl.
      erewrite bind_ret. 2:{ apply wrap_ret, lift_st. apply Hc1. }
      rewrite Z.eqb_refl.
      destruct (IH n (b ++ s_ "&#38;") false (en + 1) l tab nd ht s Hlen ltac:(discriminate)) as (w & en' & R1 & R2 & R3 & R4).
      exists w, en'. split; [exact R1|]. split; [|split; [lia|intros; lia]]. rewrite R2, app_assoc. reflexivity.
    + rewrite Ht. erewrite bind_ret. 2:{ apply lift_st. unfold ppeekn, peekn. cbn [pred]. reflexivity. }
      destruct (five_names E OK nm Hnm) as (_ & _ & H35).
      assert (Hnn : nm <> []) by (intros ->; discriminate Hp).
      replace (nth 1 (38 :: nm ++ 59 :: t' ++ q :: l) (eofr E) =? 35) with false.
      2:{ destruct nm; [congruence|]. cbn [app nth hd] in *. lia. }
      erewrite bind_ret. 2:{ apply wrap_ret. apply (entityref_st E OK S H nm 38 (t' ++ q :: l)); auto. }
      cbn [e_type e_content]. rewrite Z.eqb_refl. change (str_eqb [38] [38]) with true.
      destruct (IH n (b ++ s_ "&#38;") false (en + 1) l tab nd ht s Hlen ltac:(discriminate)) as (w & en' & R1 & R2 & R3 & R4).
      exists w, en'. split; [exact R1|]. split; [|split; [lia|intros; lia]]. rewrite R2, app_assoc. reflexivity.
Qed.

Lemma attlit_empty : forall q lit, attlit q lit [] -> lit = [].
Proof.
  intros q lit Hl. remember (@nil Z) as v eqn:Hv. destruct Hl; auto; exfalso; try discriminate.
  - cbn in Hv. pose proof (encode_nonempty c). destruct (encode_rune c); [congruence|discriminate].
  - cbn in Hv. pose proof (encode_nonempty x). destruct (encode_rune x); [congruence|discriminate].
Qed.
Lemma attlit_ne : forall q lit v, attlit q lit v -> lit = [] -> v = [].
Proof. intros q lit v Hl ->. inversion Hl; auto. Qed.

(* the type recorded for an attribute *)
Definition special (s : pst S) (e a : str) : bool :=
  match lookupSpecial (attsSpecial s) (special_key e a) with Some t => negb (t =? AttrInvalid) | None => false end.

Lemma parseAttribute_typed : forall n nm p l e1 e2 q lit v r tab nd ht s, qnamed E p l -> blanks e1 -> blanks e2 ->
  q = 34 \/ q = 39 -> attlit q lit v -> (special s nm (utf8 l) = true -> v = [] \/ tokens v <> []) -> (List.length lit < n)%nat ->
  parseAttribute E S H n nm (st (qname p l ++ e1 ++ [61] ++ e2 ++ [q] ++ lit ++ [q] ++ r) tab nd ht s) =
    (Ret (utf8 l, utf8 p, if special s nm (utf8 l) then spaced (tokens v) else v), st r tab nd ht s).
Proof.
  intros n nm p l e1 e2 q lit v r tab nd ht s Hq He1 He2 Hqq Hlit Hsp Hn. unfold parseAttribute.
  destruct (equals_end E OK e1 (e2 ++ [q] ++ lit ++ [q] ++ r) He1) as [B1 B2].
  erewrite bind_ret.
  2:{ apply lift_st. unfold pwrap. rewrite (parseQName_app E OK p l); auto. }
  cbv beta iota. erewrite bind_ret by reflexivity. cbn [Complete.st attsSpecial]. fold (special s nm (utf8 l)).
  set (z := special s nm (utf8 l)) in *. cbv zeta.
  erewrite bind_ret by (apply mskip_st; [auto|reflexivity]).
  cbn [app]. erewrite bind_ret by apply madv1_st.
  erewrite bind_ret by (apply mskip_st; [auto|apply quote_not_blank; auto]).
  destruct z.
  - destruct (attlit_norm q lit v Hlit Hqq n [] false 0 r tab nd ht s Hn ltac:(discriminate)) as (w & en & Hen & Hw & Hle & Ht).
    erewrite bind_ret.
    2:{ apply wrap_ret. unfold parseAttributeValue. erewrite bind_ret by apply mpeek_st.
        replace ((q =? 34) || (q =? 39)) with true by lia. erewrite bind_ret by apply madv1_st.
        unfold always, parseAttributeValueInternal. cbn [app]. rewrite Hen. cbn [Complete.st inp fst snd peek]. rewrite Z.eqb_refl.
        rewrite advance_1. reflexivity. }
    cbv beta. cbn [fst snd andb]. rewrite spaced_join, tokens_words. cbn [app] in Hw.
    assert (Hfin : (if 0 <? en then mlift S (attrNormalizeSpace w) else ret S w) (st r tab nd ht s) = (Ret (join (words v)), st r tab nd ht s)).
    { destruct (Z.ltb_spec 0 en) as [Hlt|Hge].
      - destruct (Hsp eq_refl) as [->|Hne].
        + apply attlit_empty in Hlit. subst lit. destruct n; [lia|]. rewrite attrValueLoop_step in Hen. cbn [app] in Hen.
          erewrite bind_ret in Hen by apply mpeek_st. rewrite Z.eqb_refl in Hen. inversion Hen; lia.
        + unfold mlift. rewrite norm_words by (rewrite Hw; exact Hne). rewrite Hw. reflexivity.
      - assert (en = 0) by lia. destruct Ht as (ws & Hws & ->); auto; [exists []; split; [constructor|left; auto]|].
        rewrite words_join in Hw by auto. subst ws. reflexivity. }
    erewrite bind_ret by exact Hfin. reflexivity.
  - destruct (attlit_st E OK S H q lit v Hlit Hqq n [] false 0 r tab nd ht s Hn) as [en Hen].
    erewrite bind_ret.
    2:{ apply wrap_ret. unfold parseAttributeValue. erewrite bind_ret by apply mpeek_st.
        replace ((q =? 34) || (q =? 39)) with true by lia. erewrite bind_ret by apply madv1_st.
        unfold always, parseAttributeValueInternal. cbn [app]. rewrite Hen. cbn [Complete.st inp fst snd peek]. rewrite Z.eqb_refl.
        rewrite advance_1. reflexivity. }
    reflexivity.
Qed.

(* the attributes of a start tag with the types recorded in the state *)
Definition valued (s : pst S) (nm : str) (x : attr) : attr :=
  match x with
  | AAttr al ap v => AAttr al ap (if special s nm al then spaced (tokens v) else v)
  | _ => x
  end.
Definition decl_key (dp : str) : str := match dp with [] => s_ "xmlns" | _ => dp end.
Definition readable (s : pst S) (nm : str) (a : list attr) (d : list (str * str)) : Prop :=
  (forall al ap v, In (AAttr al ap v) a -> special s nm al = true -> v = [] \/ tokens v <> []) /\
  (forall dp u, In (dp, u) d -> special s nm (decl_key dp) = false).

Lemma atts_typed : forall t a d, atts E t a d -> forall e r n nm acc k tab nd ht s, readable s nm a d ->
  NoDup (map fst (tab ++ d)) -> (List.length t < n)%nat ->
  attrLoop E S H n nm acc k (st (t ++ tail e r) tab nd ht s) =
    (Ret (acc ++ map (valued s nm) a, (k + List.length d)%nat), st (left e r) (tab ++ d) nd ht s).
Proof.
  intros t a d Ht. induction Ht as [b Hb|b p l e1 e2 q lit v t a d Hb1 Hb2 Hql Hx1 Hx2 He1 He2 Hq Hlit Ht IH
    |b l e1 e2 q lit v t a d Hb1 Hb2 Hl Hl1 Hl2 He1 He2 Hq Hlit Hv1 Hv2 Hu Ht IH
    |b e1 e2 q lit v Hb1 Hb2 He1 He2 Hq Hlit Hv];
  intros e r n nm acc k tab nd ht s [Hra Hrd] Hnd Hn; (destruct n as [|n]; [lia|]).
  - rewrite attrLoop_skip by (auto; apply tail_not_blank). rewrite attrLoop_step.
    destruct (mskip0_st S (tail e r) tab nd ht s (tail_not_blank e r)) as [x Hx]. erewrite bind_ret by exact Hx.
    cbn [map]. rewrite !app_nil_r, Nat.add_0_r. destruct e; reflexivity.
  - rewrite <- !app_assoc. destruct (qname_head E p l Hql) as (c & z & Hqn & Hc).
    rewrite attrLoop_skip; auto. 2:{ rewrite Hqn. eapply name_not_blank; eauto. }
    rewrite attrLoop_step. rewrite !app_length in Hn. cbn [List.length] in Hn.
    destruct (mskip0_st S (qname p l ++ e1 ++ [61] ++ e2 ++ [q] ++ lit ++ [q] ++ t ++ tail e r) tab nd ht s) as [x Hx].
    { rewrite Hqn. eapply name_not_blank; eauto. }
    erewrite bind_ret by exact Hx. clear x Hx.
    erewrite bind_ret by (eapply mpeek_eq; rewrite Hqn; reflexivity).
    destruct (name_start_facts E OK c Hc) as (C1 & C2 & C3 & _). destruct (Z.eqb_spec c 62); [contradiction|].
    erewrite bind_ret by (apply lift_st; reflexivity). destruct (Z.eqb_spec c 47); [contradiction|]. cbn [andb].
    erewrite bind_ret. 2:{ apply wrap_ret. apply (parseAttribute_typed n nm p l e1 e2 q lit v); auto; [|lia]. intros Hs. apply (Hra (utf8 l) (utf8 p)); [left; reflexivity|auto]. }
    cbv beta iota zeta.
    replace (str_eqb (utf8 l) s_xmlns && str_eqb (utf8 p) []) with false.
    2:{ symmetry. destruct p as [|y p]; [|rewrite (str_eqb_nil (utf8 (y :: p))), andb_false_r; auto].
        rewrite (neq_xmlns E); [reflexivity|apply Hql|auto]. intros X; apply utf8_nil in X; discriminate. }
    replace (str_eqb (utf8 p) s_xmlns) with false.
    2:{ symmetry. destruct Hql as [[->|Hp] _]; [reflexivity|]. apply (neq_xmlns E); auto. }
    rewrite IH; [|split; [intros; eapply Hra; [right|]; eauto|auto]|auto|lia]. rewrite <- app_assoc. reflexivity.
  - rewrite <- !app_assoc. set (p := s_ "xmlns"). assert (Hql : qnamed E p l) by (split; [right; apply xmlns_ncname; auto|auto]).
    destruct (qname_head E p l Hql) as (c & z & Hqn & Hc).
    rewrite attrLoop_skip; auto. 2:{ rewrite Hqn. eapply name_not_blank; eauto. }
    rewrite attrLoop_step. rewrite !app_length in Hn. cbn [List.length] in Hn.
    destruct (mskip0_st S (qname p l ++ e1 ++ [61] ++ e2 ++ [q] ++ lit ++ [q] ++ t ++ tail e r) tab nd ht s) as [x Hx].
    { rewrite Hqn. eapply name_not_blank; eauto. }
    erewrite bind_ret by exact Hx. clear x Hx.
    erewrite bind_ret by (eapply mpeek_eq; rewrite Hqn; reflexivity).
    destruct (name_start_facts E OK c Hc) as (C1 & C2 & C3 & _). destruct (Z.eqb_spec c 62); [contradiction|].
    erewrite bind_ret by (apply lift_st; reflexivity). destruct (Z.eqb_spec c 47); [contradiction|]. cbn [andb].
    assert (Hkey : special s nm (utf8 l) = false).
    { specialize (Hrd (utf8 l) v (or_introl eq_refl)). unfold decl_key in Hrd. destruct (utf8 l) eqn:Hul; [|exact Hrd].
      apply utf8_nil in Hul. subst l. destruct Hl as [[] _]. }
    erewrite bind_ret. 2:{ apply wrap_ret. apply (parseAttribute_typed n nm p l e1 e2 q lit v); auto; [|lia]. rewrite Hkey. discriminate. }
    rewrite Hkey. cbv beta iota zeta. change (utf8 p) with p. change (str_eqb p []) with false. rewrite andb_false_r.
    change (str_eqb p s_xmlns) with true.
    rewrite (neq_xml E l) by auto.
    rewrite (neq_xmlns E l) by auto.
    destruct (str_eqb_spec v XMLNSNamespace) as [Hbad|_]; [exfalso; apply Hv2; exact Hbad|].
    rewrite str_eqb_nil by auto. rewrite Hu. cbn [negb].
    assert (Hnew : ~ In (utf8 l) (map fst tab)) by (apply NoDup_mid in Hnd; exact Hnd).
    erewrite bind_ret by reflexivity. cbn [Complete.st nsTab]. rewrite lookupNS_absent by auto. cbn [str_eqb negb].
    erewrite bind_ret by reflexivity. rewrite pushNS_absent by auto.
    change (set_nsTab S (tab ++ [(utf8 l, v)]) (st (t ++ tail e r) tab nd ht s)) with (st (t ++ tail e r) (tab ++ [(utf8 l, v)]) nd ht s).
    destruct (afterNSDecl_st E OK S t a d Ht e r (tab ++ [(utf8 l, v)]) nd ht s) as (b' & l' & x & Heq & Hb' & Hl' & Hrun & _).
    erewrite bind_ret by exact Hrun. destruct n as [|n]; [lia|].
    rewrite <- (attrLoop_skip E S H n nm acc (Datatypes.S k) b' l') by auto. rewrite <- Heq.
    rewrite IH; [|split; [auto|intros; eapply Hrd; right; eauto]|rewrite <- app_assoc; auto|lia].
    rewrite <- app_assoc. cbn [List.length app]. rewrite Nat.add_succ_r. reflexivity.
  - rewrite <- !app_assoc. assert (Hql : qnamed E [] (s_ "xmlns")) by (split; [left; auto|apply xmlns_ncname; auto]).
    change (s_ "xmlns" ++ e1 ++ [61] ++ e2 ++ [q] ++ lit ++ [q] ++ tail e r) with (qname [] (s_ "xmlns") ++ e1 ++ [61] ++ e2 ++ [q] ++ lit ++ [q] ++ tail e r).
    destruct (qname_head E [] (s_ "xmlns") Hql) as (c & z & Hqn & Hc).
    rewrite attrLoop_skip; auto. 2:{ rewrite Hqn. eapply name_not_blank; eauto. }
    rewrite attrLoop_step. rewrite !app_length in Hn. cbn [List.length] in Hn.
    destruct (mskip0_st S (qname [] (s_ "xmlns") ++ e1 ++ [61] ++ e2 ++ [q] ++ lit ++ [q] ++ tail e r) tab nd ht s) as [x Hx].
    { rewrite Hqn. eapply name_not_blank; eauto. }
    erewrite bind_ret by exact Hx. clear x Hx.
    erewrite bind_ret by (eapply mpeek_eq; rewrite Hqn; reflexivity).
    destruct (name_start_facts E OK c Hc) as (C1 & C2 & C3 & _). destruct (Z.eqb_spec c 62); [contradiction|].
    erewrite bind_ret by (apply lift_st; reflexivity). destruct (Z.eqb_spec c 47); [contradiction|]. cbn [andb].
    assert (Hkey : special s nm (utf8 (s_ "xmlns")) = false) by (apply (Hrd [] v); left; auto).
    erewrite bind_ret. 2:{ apply wrap_ret. apply (parseAttribute_typed n nm [] (s_ "xmlns") e1 e2 q lit v); auto; [|lia]. rewrite Hkey. discriminate. }
    rewrite Hkey. cbv beta iota zeta. change (str_eqb (utf8 (s_ "xmlns")) s_xmlns && str_eqb (utf8 []) []) with true. cbv iota.
    assert (Hnew : ~ In [] (map fst tab)) by (apply NoDup_mid in Hnd; exact Hnd).
    erewrite bind_ret by reflexivity. cbn [Complete.st nsTab]. rewrite pushNS_absent by auto.
    change (set_nsTab S (tab ++ [([], v)]) (st (tail e r) tab nd ht s)) with (st (tail e r) (tab ++ [([], v)]) nd ht s).
    assert (Hrun : afterNSDecl E S (st (tail e r) (tab ++ [([], v)]) nd ht s) = (Ret true, st (tail e r) (tab ++ [([], v)]) nd ht s)) by (destruct e; reflexivity).
    erewrite bind_ret by exact Hrun. destruct n as [|n]; [lia|]. rewrite attrLoop_step.
    destruct (mskip0_st S (tail e r) (tab ++ [([], v)]) nd ht s (tail_not_blank e r)) as [x Hx]. erewrite bind_ret by exact Hx.
    rewrite app_nil_r. cbn [List.length]. rewrite Nat.add_1_r. destruct e; reflexivity.
Qed.

Definition as_default (x : str * str * str) : attr := let '(l, p, v) := x in ADefault l p v.
Lemma prefixed_utf8 : forall p l, match utf8 p with [] => utf8 l | _ => utf8 p ++ [58] ++ utf8 l end = utf8 (qname p l).
Proof.
  intros p l. destruct p as [|c p]; [reflexivity|]. destruct (utf8 (c :: p)) as [|x y] eqn:Hx; [apply utf8_nil in Hx; discriminate|].
  rewrite <- Hx. unfold qname. rewrite !utf8_app. reflexivity.
Qed.
Lemma parseStartTag_typed : forall n p l t a d u ns e r tab nd ht ht' s,
  qnamed E p l -> atts E t a d -> resolves (rev d ++ ns) (utf8 p) u -> scoped ns tab -> NoDup (map fst (tab ++ d)) ->
  readable s (utf8 l) a d -> (List.length t < n)%nat ->
  deliver S H (the_view S s) ht [EStartElement (utf8 l) (utf8 p) u (map Some d)
     (map (valued s (utf8 l)) a ++ map as_default (permute E (List.length (snd ht)) (defaultsOf (utf8 (qname p l)) (attsDefault s))))] = Some ht' ->
  parseStartTag E S H n (st (60 :: qname p l ++ t ++ tail e r) tab nd ht s) =
    (Ret tt, st (left e r) (tab ++ d) ((utf8 l, utf8 p, u) :: nd) ht' s).
Proof.
  intros n p l t a d u ns e r tab nd ht ht' s Hql Ht Hr Hsc Hnd Hrd Hn Hd. unfold parseStartTag.
  erewrite bind_ret by apply mpeek_st. rewrite Z.eqb_refl. cbn [negb]. erewrite bind_ret by apply madv1_st.
  destruct (tag_name_end E OK t a d e r Ht) as [T1 T2].
  erewrite bind_ret. 2:{ apply lift_st. unfold por_else. rewrite (parseQName_app E OK p l); auto. }
  cbv beta iota. assert (Hl : utf8 l <> []). { apply utf8_ne. destruct Hql as [_ Hl]. destruct l; [destruct Hl as [[] _]|discriminate]. }
  destruct (utf8 l) as [|l0 lr] eqn:Hul; [congruence|]. rewrite <- Hul in *.
  erewrite bind_ret by (apply (atts_typed t a d Ht); auto). cbv beta iota. cbn [app Nat.add].
  erewrite bind_ret by reflexivity. cbn [Complete.st attsDefault]. rewrite prefixed_utf8. cbv zeta.
  erewrite bind_ret by reflexivity. cbn [Complete.st nsTab].
  pose proof (scoped_inner ns tab d Hsc Hnd (atts_values E t a d Ht)) as Hsc'.
  destruct (resolves_lookup _ _ _ _ Hsc' Hr) as [Hlk Hun]. rewrite Hlk.
  replace (negb (str_eqb (utf8 p) []) && str_eqb u []) with false.
  2:{ symmetry. destruct (str_eqb_spec (utf8 p) []); [reflexivity|]. rewrite str_eqb_nil; auto. }
  rewrite lastn_app, Nat.sub_diag. cbn [repeat]. rewrite app_nil_r.
  erewrite bind_ret by (apply emit_st; exact Hd).
  unfold modify. replace (if str_eqb u [] then [] else utf8 p) with (utf8 p); [reflexivity|].
  destruct (str_eqb_spec u []); auto. destruct (utf8 p); auto. exfalso. apply Hun; [discriminate|auto].
Qed.
End A.
