(* An entity whose text begins with a reference to itself, used in the value
   of an attribute: stringToNodeList never comes back. *)
From Coq Require Import FMapPositive.
From Verif Require Import Base Utf8 Utf8Proofs Scan Heap TreeShape TreeOps Forest ForestOps ForestAttr History DtdProofs DtdHistory.

Lemma upToSemi_name : forall a b, ~ In 59 a -> upToSemi (a ++ 59 :: b) = Some (a, b).
Proof.
  induction a as [|c a IH]; intros b N; [reflexivity|]. cbn [app upToSemi]. destruct (Z.eqb_spec c 59) as [->|]; [exfalso; apply N; now left|].
  rewrite IH; [reflexivity|]. intro X. apply N. now right.
Qed.
Lemma hbind_oof {A B} (m : HM A) (f : A -> HM B) h : fst (m h) = Oof -> fst (hbind m f h) = Oof.
Proof. unfold hbind. destruct (m h) as [[] h']; cbn; intro X; congruence || discriminate || reflexivity. Qed.

Section loop.
Variables (d i x : ptr) (cd ci cx : cell).
Variables (v e : str) (sa : Z) (xs : option ptr) (nm pu sy : str) (t : tables).
Variables (r1 : Z) (name rest : list Z) (ty : Z) (p1 p2 og content_ : str).
Hypothesis Dd : dat cd = DDoc v e sa (Some i) xs.
Hypothesis Di : dat ci = DDtd nm pu sy t.
Hypothesis Dx : dat cx = DEntity (utf8 (r1 :: name)) ty p1 p2 content_ og.
Hypothesis Ht : ty <> 6.
Hypothesis Hx : tget (t_ents t) (utf8 (r1 :: name)) = Some x.
Hypothesis Lx : l_first (lk cx) = None /\ l_next (lk cx) = None.
Hypothesis Hr : r1 <> 35 /\ r1 <> 59 /\ ~ In 59 name /\ hd 0 (utf8 (r1 :: name)) <> 38.
Hypothesis Hc : runes_of content_ = 38 :: r1 :: name ++ 59 :: rest.

Definition kept (h : heap) : Prop :=
  hget h d = Some cd /\ hget h i = Some ci /\ hget h x = Some cx /\ (d < nxt h /\ i < nxt h /\ x < nxt h)%positive.

Lemma kept_entity h : kept h -> GetEntity (Some d) (utf8 (r1 :: name)) h = (Ret (Some x), h).
Proof.
  intros (Ed & Ei & Ex & _). unfold GetEntity. rewrite (hbind_ret _ _ _ _ _ (eq_refl (hret d h))).
  assert (Gd : getDoc d h = (Ret (v, e, sa, Some i, xs), h)).
  { unfold getDoc. rewrite (bind_getc _ _ _ _ Ed). cbv beta. rewrite Dd. reflexivity. }
  rewrite (hbind_ret _ _ _ _ _ Gd). cbv beta iota. unfold LookupEntity.
  rewrite (hbind_ret _ _ _ _ _ (getDtd_run _ _ _ _ _ _ _ Ei Di)). cbn [snd]. rewrite Hx. reflexivity.
Qed.
Lemma refName_id : refName (utf8 (r1 :: name)) = utf8 (r1 :: name).
Proof.
  assert (G : forall l, hd 0 l <> 38 -> refName l = l); [|apply G, Hr]. clear. intros [|c l] H; [reflexivity|]. cbn in H.
  destruct c as [|c|c]; try reflexivity. do 6 (destruct c as [c|c|]; try reflexivity). contradiction.
Qed.
Lemma name_nonempty : utf8 (r1 :: name) <> [].
Proof. apply utf8_nonempty. Qed.
Lemma kept_set h y c : (d <> y /\ i <> y /\ x <> y) -> kept h -> forall h', h' = {| cells := PositiveMap.add y c (cells h); nxt := nxt h' |} -> (nxt h <= nxt h')%positive -> kept h'.
Proof.
  intros Hy (A & B & C & D1 & D2 & D3) h' Eh Hn.
  assert (G : forall z, z <> y -> hget h' z = hget h z).
  { intros z Hz. rewrite Eh. unfold hget. cbn [cells]. rewrite PositiveMap.gso; [reflexivity|exact Hz]. }
  unfold kept. rewrite !G by tauto. repeat (split; [assumption|]). lia.
Qed.
Lemma reference_made h : kept h -> exists h', CreateReference (Some d) (utf8 (r1 :: name)) h = (Ret (nxt h), h') /\ kept h' /\
  forall n, Content n (nxt h) h' = (Ret content_, h') \/ Content n (nxt h) h' = (Oof, h').
Proof.
  intro K. assert (NN : d <> nxt h /\ i <> nxt h /\ x <> nxt h) by (destruct K as (_ & _ & _ & K); lia). unfold CreateReference.
  set (k0 := {| lk := nolinks; owner := Some d; dat := DRef (utf8 (r1 :: name)) |}).
  assert (C1 : CreateCharRef (Some d) (utf8 (r1 :: name)) h = (Ret (nxt h), with_new h k0)).
  { assert (G : forall l, l <> [] -> CreateCharRef (Some d) l h = (Ret (nxt h), with_new h {| lk := nolinks; owner := Some d; dat := DRef (refName l) |}))
      by (intros [|] N; [contradiction|reflexivity]).
    rewrite (G _ name_nonempty), refName_id. reflexivity. }
  rewrite (hbind_ret _ _ _ _ _ C1), refName_id.
  assert (K1 : kept (with_new h k0)) by (eapply (kept_set h (nxt h) k0); [exact NN|exact K|reflexivity|cbn; lia]).
  rewrite (hbind_ret _ _ _ _ _ (kept_entity _ K1)). cbv iota.
  assert (E1 : hget (with_new h k0) (nxt h) = Some k0) by (rewrite hget_new, Pos.eqb_refl; reflexivity).
  set (k1 := with_lk (lset_first (Some x)) k0). set (h1 := hset (with_new h k0) (nxt h) k1).
  assert (E2 : hget h1 (nxt h) = Some k1) by (unfold h1, hset, hget; cbn [cells]; rewrite PositiveMap.gss; reflexivity).
  set (k2 := with_lk (lset_last (Some x)) k1). set (h2 := hset h1 (nxt h) k2).
  assert (Rn : (setFirst (nxt h) (Some x) ;; setLast (nxt h) (Some x)) (with_new h k0) = (Ret tt, h2)).
  { erewrite hbind_ret; [|exact (upd_run _ _ _ _ E1)]. exact (upd_run _ _ _ _ E2). }
  rewrite (hbind_ret _ _ _ _ _ Rn). exists h2. split; [reflexivity|].
  assert (K2 : kept h2).
  { eapply (kept_set h1 (nxt h) k2); [exact NN|eapply (kept_set (with_new h k0) (nxt h) k1); [exact NN|exact K1|reflexivity|cbn; lia]|reflexivity|cbn; lia]. }
  split; [exact K2|]. intro n. unfold Content. assert (E3 : hget h2 (nxt h) = Some k2) by (unfold h2, hset, hget; cbn [cells]; rewrite PositiveMap.gss; reflexivity).
  destruct K2 as (_ & _ & Ex & _). destruct n as [|n]; [right; reflexivity|]. cbn [content]. rewrite E3. cbn [k2 k1 k0 with_lk dat lk nolinks lset_first lset_last l_first].
  destruct n as [|n]; [right; reflexivity|]. cbn [contents]. rewrite Ex. destruct n as [|n]; [right; reflexivity|]. cbn [content]. rewrite Ex, Dx. cbn [obind].
  destruct Lx as [_ ->]. cbn [contents obind]. rewrite app_nil_r. left. reflexivity.
Qed.
Lemma loop_never n : forall h w, kept h -> fst (nodeList n (Some d) (38 :: r1 :: name ++ 59 :: w) [] (None, None) h) = Oof.
Proof.
  induction n as [|n IH]; intros h w K; [reflexivity|]. cbn [nodeList]. change (negb (38 =? 38)) with false. cbv iota.
  destruct Hr as (H1 & H2 & H3 & _). rewrite (proj2 (Z.eqb_neq _ _) H1).
  assert (U : upToSemi (r1 :: name ++ 59 :: w) = Some (r1 :: name, w)).
  { apply (upToSemi_name (r1 :: name)). intros [X|X]; [exact (H2 X)|exact (H3 X)]. }
  rewrite U. rewrite (hbind_ret _ _ _ _ _ (kept_entity _ K)). cbv beta iota. pose proof K as (_ & _ & Ex & _).
  erewrite hbind_ret; [|rewrite (bind_getc _ _ _ _ Ex); cbv beta; rewrite Dx, (proj2 (Z.eqb_neq _ _) Ht); reflexivity]. cbv beta iota.
  cbn [flushText]. rewrite (hbind_ret _ _ _ _ _ (eq_refl (hret (None, None) h))).
  destruct (reference_made _ K) as (h' & R & K' & Cn). rewrite (hbind_ret _ _ _ _ _ R). cbv beta.
  apply hbind_oof. pose proof K' as (_ & _ & Ex' & _). rewrite (bind_getc _ _ _ _ Ex'). cbv beta. destruct Lx as [-> _].
  destruct (Cn n) as [C|C]; [|apply hbind_oof; rewrite C; reflexivity]. rewrite (hbind_ret _ _ _ _ _ C). cbv beta.
  apply hbind_oof. rewrite Hc. apply IH, K'.
Qed.
(* in the value of an attribute set on an element of the document *)
Lemma attribute_never n h el ce a : kept h -> hget h el = Some ce -> owner ce = Some d -> fst (SetAttribute n el a content_ h) = Oof.
Proof.
  intros K El Ow. unfold SetAttribute. rewrite (bind_getc _ _ _ _ El), Ow. apply hbind_oof. unfold CreateAttribute.
  rewrite (hbind_ret _ _ _ _ _ (alloc_run _ _ _)).
  match goal with |- fst (_ ?g) = Oof => assert (G : fst (stringToNodeList n (Some d) content_ g) = Oof) end.
  { unfold stringToNodeList. rewrite Hc. apply loop_never. eapply (kept_set h (nxt h)); [destruct K as (_ & _ & _ & K); lia|exact K|reflexivity|cbn; lia]. }
  assert (N : content_ <> []) by (intro X; rewrite X in Hc; discriminate Hc).
  revert G N. generalize content_. clear. intros [|b bs] G N; [contradiction|]. apply hbind_oof, G.
Qed.
End loop.

(* An entity that is declared before one that refers to it: the reference to the
   first takes the text of both for its content. *)
Section next.
Variables (d i x y : ptr) (cd ci cx cy : cell).
Variables (v e : str) (sa : Z) (xs : option ptr) (nm pu sy : str) (t : tables).
Variables (r1 : Z) (name rest : list Z) (ty : Z) (p1 p2 og content_ : str) (name2 : str) (ty2 : Z) (q1 q2 og2 content2 : str).
Hypothesis Dd : dat cd = DDoc v e sa (Some i) xs.
Hypothesis Di : dat ci = DDtd nm pu sy t.
Hypothesis Dx : dat cx = DEntity (utf8 (r1 :: name)) ty p1 p2 content_ og.
Hypothesis Dy : dat cy = DEntity name2 ty2 q1 q2 content2 og2.
Hypothesis Ht : ty <> 6.
Hypothesis Hx : tget (t_ents t) (utf8 (r1 :: name)) = Some x.
Hypothesis Lx : l_first (lk cx) = None /\ l_next (lk cx) = Some y /\ l_next (lk cy) = None.
Hypothesis Hr : r1 <> 35 /\ r1 <> 59 /\ ~ In 59 name /\ hd 0 (utf8 (r1 :: name)) <> 38.
Hypothesis Hc : runes_of (content_ ++ content2) = 38 :: r1 :: name ++ 59 :: rest.

Hypothesis Hok : Forall (fun r => valid_rune r = true) (38 :: r1 :: name ++ [59]).

Definition kept2 (h : heap) : Prop :=
  hget h d = Some cd /\ hget h i = Some ci /\ hget h x = Some cx /\ hget h y = Some cy /\ (d < nxt h /\ i < nxt h /\ x < nxt h /\ y < nxt h)%positive.

Lemma kept2_entity h : kept2 h -> GetEntity (Some d) (utf8 (r1 :: name)) h = (Ret (Some x), h).
Proof.
  intros (Ed & Ei & Ex & _). unfold GetEntity. rewrite (hbind_ret _ _ _ _ _ (eq_refl (hret d h))).
  assert (Gd : getDoc d h = (Ret (v, e, sa, Some i, xs), h)).
  { unfold getDoc. rewrite (bind_getc _ _ _ _ Ed). cbv beta. rewrite Dd. reflexivity. }
  rewrite (hbind_ret _ _ _ _ _ Gd). cbv beta iota. unfold LookupEntity.
  rewrite (hbind_ret _ _ _ _ _ (getDtd_run _ _ _ _ _ _ _ Ei Di)). cbn [snd]. rewrite Hx. reflexivity.
Qed.
Lemma refName_id2 : refName (utf8 (r1 :: name)) = utf8 (r1 :: name).
Proof.
  assert (G : forall l, hd 0 l <> 38 -> refName l = l); [|apply G, Hr]. clear. intros [|c l] H; [reflexivity|]. cbn in H.
  destruct c as [|c|c]; try reflexivity. do 6 (destruct c as [c|c|]; try reflexivity). contradiction.
Qed.
Lemma name_nonempty2 : utf8 (r1 :: name) <> [].
Proof. apply utf8_nonempty. Qed.
Lemma kept2_set h z0 c : (d <> z0 /\ i <> z0 /\ x <> z0 /\ y <> z0) -> kept2 h -> forall h', h' = {| cells := PositiveMap.add z0 c (cells h); nxt := nxt h' |} -> (nxt h <= nxt h')%positive -> kept2 h'.
Proof.
  intros Hy (A & B & C & C2 & D1 & D2 & D3 & D4) h' Eh Hn.
  assert (G : forall z, z <> z0 -> hget h' z = hget h z).
  { intros z Hz. rewrite Eh. unfold hget. cbn [cells]. rewrite PositiveMap.gso; [reflexivity|exact Hz]. }
  unfold kept2. rewrite !G by tauto. repeat (split; [assumption|]). lia.
Qed.
Lemma reference_made2 h : kept2 h -> exists h', CreateReference (Some d) (utf8 (r1 :: name)) h = (Ret (nxt h), h') /\ kept2 h' /\
  forall n, Content n (nxt h) h' = (Ret (content_ ++ content2), h') \/ Content n (nxt h) h' = (Oof, h').
Proof.
  intro K. assert (NN : d <> nxt h /\ i <> nxt h /\ x <> nxt h /\ y <> nxt h) by (destruct K as (_ & _ & _ & _ & K); lia). unfold CreateReference.
  set (k0 := {| lk := nolinks; owner := Some d; dat := DRef (utf8 (r1 :: name)) |}).
  assert (C1 : CreateCharRef (Some d) (utf8 (r1 :: name)) h = (Ret (nxt h), with_new h k0)).
  { assert (G : forall l, l <> [] -> CreateCharRef (Some d) l h = (Ret (nxt h), with_new h {| lk := nolinks; owner := Some d; dat := DRef (refName l) |}))
      by (intros [|] N; [contradiction|reflexivity]).
    rewrite (G _ name_nonempty2), refName_id2. reflexivity. }
  rewrite (hbind_ret _ _ _ _ _ C1), refName_id2.
  assert (K1 : kept2 (with_new h k0)) by (eapply (kept2_set h (nxt h) k0); [exact NN|exact K|reflexivity|cbn; lia]).
  rewrite (hbind_ret _ _ _ _ _ (kept2_entity _ K1)). cbv iota.
  assert (E1 : hget (with_new h k0) (nxt h) = Some k0) by (rewrite hget_new, Pos.eqb_refl; reflexivity).
  set (k1 := with_lk (lset_first (Some x)) k0). set (h1 := hset (with_new h k0) (nxt h) k1).
  assert (E2 : hget h1 (nxt h) = Some k1) by (unfold h1, hset, hget; cbn [cells]; rewrite PositiveMap.gss; reflexivity).
  set (k2 := with_lk (lset_last (Some x)) k1). set (h2 := hset h1 (nxt h) k2).
  assert (Rn : (setFirst (nxt h) (Some x) ;; setLast (nxt h) (Some x)) (with_new h k0) = (Ret tt, h2)).
  { erewrite hbind_ret; [|exact (upd_run _ _ _ _ E1)]. exact (upd_run _ _ _ _ E2). }
  rewrite (hbind_ret _ _ _ _ _ Rn). exists h2. split; [reflexivity|].
  assert (K2 : kept2 h2).
  { eapply (kept2_set h1 (nxt h) k2); [exact NN|eapply (kept2_set (with_new h k0) (nxt h) k1); [exact NN|exact K1|reflexivity|cbn; lia]|reflexivity|cbn; lia]. }
  split; [exact K2|]. intro n. unfold Content. assert (E3 : hget h2 (nxt h) = Some k2) by (unfold h2, hset, hget; cbn [cells]; rewrite PositiveMap.gss; reflexivity).
  destruct K2 as (_ & _ & Ex & Ey & _). destruct Lx as (_ & Ln & Ln2). destruct n as [|n]; [right; reflexivity|]. cbn [content]. rewrite E3. cbn [k2 k1 k0 with_lk dat lk nolinks lset_first lset_last l_first].
  destruct n as [|n]; [right; reflexivity|]. cbn [contents]. rewrite Ex, Ln. destruct n as [|n]; [right; reflexivity|]. cbn [content contents]. rewrite Ex, Ey, Dx. cbn [obind].
  destruct n as [|n]; [right; reflexivity|]. cbn [content]. rewrite Ey, Dy. cbn [obind]. rewrite Ln2. cbn [contents obind]. rewrite app_nil_r. left. reflexivity.
Qed.
Lemma loop_never2 n : forall h w, kept2 h -> fst (nodeList n (Some d) (38 :: r1 :: name ++ 59 :: w) [] (None, None) h) = Oof.
Proof.
  induction n as [|n IH]; intros h w K; [reflexivity|]. cbn [nodeList]. change (negb (38 =? 38)) with false. cbv iota.
  destruct Hr as (H1 & H2 & H3 & _). rewrite (proj2 (Z.eqb_neq _ _) H1).
  assert (U : upToSemi (r1 :: name ++ 59 :: w) = Some (r1 :: name, w)).
  { apply (upToSemi_name (r1 :: name)). intros [X|X]; [exact (H2 X)|exact (H3 X)]. }
  rewrite U. rewrite (hbind_ret _ _ _ _ _ (kept2_entity _ K)). cbv beta iota. pose proof K as (_ & _ & Ex & _ & _).
  erewrite hbind_ret; [|rewrite (bind_getc _ _ _ _ Ex); cbv beta; rewrite Dx, (proj2 (Z.eqb_neq _ _) Ht); reflexivity]. cbv beta iota.
  cbn [flushText]. rewrite (hbind_ret _ _ _ _ _ (eq_refl (hret (None, None) h))).
  destruct (reference_made2 _ K) as (h' & R & K' & Cn). rewrite (hbind_ret _ _ _ _ _ R). cbv beta.
  apply hbind_oof. pose proof K' as (_ & _ & Ex' & _). rewrite (bind_getc _ _ _ _ Ex'). cbv beta. destruct Lx as [-> _].
  destruct (Cn n) as [C|C]; [|apply hbind_oof; rewrite C; reflexivity]. rewrite (hbind_ret _ _ _ _ _ C). cbv beta.
  apply hbind_oof. rewrite Hc. apply IH, K'.
Qed.
(* in the value of an attribute set on an element of the document *)
Lemma attribute_never2 n h el ce a : kept2 h -> hget h el = Some ce -> owner ce = Some d -> fst (SetAttribute n el a (utf8 (38 :: r1 :: name ++ 59 :: [])) h) = Oof.
Proof.
  intros K El Ow. unfold SetAttribute. rewrite (bind_getc _ _ _ _ El), Ow. apply hbind_oof. unfold CreateAttribute.
  rewrite (hbind_ret _ _ _ _ _ (alloc_run _ _ _)).
  set (val := utf8 (38 :: r1 :: name ++ [59])). assert (Hv : runes_of val = 38 :: r1 :: name ++ [59]) by (apply runes_of_utf8; exact Hok).
  match goal with |- fst (_ ?g) = Oof => assert (G : fst (stringToNodeList n (Some d) val g) = Oof) end.
  { unfold stringToNodeList. rewrite Hv. apply loop_never2. eapply (kept2_set h (nxt h)); [destruct K as (_ & _ & _ & _ & K); lia|exact K|reflexivity|cbn; lia]. }
  assert (N : val <> []) by (intro X; rewrite X in Hv; discriminate Hv).
  revert G N. generalize val. clear. intros [|b bs] G N; [contradiction|]. apply hbind_oof, G.
Qed.
End next.
