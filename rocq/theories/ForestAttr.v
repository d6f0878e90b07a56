(* SetAttribute on a forest. *)
From Coq Require Import FMapPositive Permutation.
From Verif Require Import Base Utf8 Utf8Proofs XmlSpec Escape Scan LexProofs Heap TreeShape TreeOps Forest ForestOps ForestAdd.

(* ---- one node of a tree changed ---- *)
Inductive sub : ltree -> ltree -> Prop :=
| sub_here t : sub t t
| sub_down p a k t s : In t k -> sub t s -> sub (N p a k) s.

Fixpoint mapn (y : ptr) (f : ltree -> ltree) (t : ltree) : ltree :=
  match t with
  | N x a k => if Pos.eqb x y then f (N x a k) else N x a (map (mapn y f) k)
  end.

Lemma nodes_sub t y : In y (nodes t) -> exists a k, sub t (N y a k).
Proof.
  induction t as [x a k IH] using ltree_ind'. cbn [nodes]. intros [->|H].
  - exists a, k. constructor.
  - apply in_flat_map in H as (t & Ht & H). rewrite Forall_forall in IH. destruct (IH t Ht H) as (a' & k' & S).
    exists a', k'. econstructor; eassumption.
Qed.
Lemma linked_sub h t s : sub t s -> forall par prev next, linked h par prev next t -> exists par' pv nx, linked h par' pv nx s.
Proof.
  induction 1 as [t|p a k t s Ht S IH]; intros par prev next L; [eauto|].
  apply linked_eq in L as [_ K]. destruct (linkeds_in _ _ _ _ _ _ K Ht) as (pv & nx & Lt). eapply IH, Lt.
Qed.
Lemma sub_ptrs t s : sub t s -> incl (ptrs s) (ptrs t).
Proof.
  induction 1 as [t|p a k t s Ht S IH]; [apply incl_refl|]. intros x Hx. cbn [ptrs]. right. apply in_or_app; right.
  apply in_flat_map. exists t. split; [exact Ht|apply IH, Hx].
Qed.
Lemma sub_nodes t s : sub t s -> incl (nodes s) (nodes t).
Proof.
  induction 1 as [t|p a k t s Ht S IH]; [apply incl_refl|]. intros x Hx. cbn [nodes]. right.
  apply in_flat_map. exists t. split; [exact Ht|apply IH, Hx].
Qed.
Lemma mapn_id y f t : ~ In y (nodes t) -> mapn y f t = t.
Proof.
  induction t as [x a k IH] using ltree_ind'. cbn [nodes mapn]. intro H.
  destruct (Pos.eqb_spec x y) as [->|Hne]; [exfalso; apply H; left; reflexivity|].
  f_equal. rewrite Forall_forall in IH. rewrite <- (map_id k) at 2. apply map_ext_in.
  intros t Ht. apply IH; [exact Ht|]. intro Hy. apply H. right. apply in_flat_map. exists t. auto.
Qed.
Lemma nodup_kid p a k t : NoDup (ptrs (N p a k)) -> In t k -> NoDup (ptrs t).
Proof.
  intros H Ht. apply in_split in Ht as (k1 & k2 & ->). cbn [ptrs] in H. apply NoDup_cons_iff in H as [_ H].
  apply nodup_app_r in H. rewrite flat_map_app in H. apply nodup_app_r in H. cbn [flat_map] in H. eapply nodup_app_l; exact H.
Qed.
(* in a tree without repetition a pointer of one kid is in no other *)
Lemma kid_disj p a k1 t k2 x u : NoDup (ptrs (N p a (k1 ++ t :: k2))) -> In x (ptrs t) ->
  In u k1 \/ In u k2 -> ~ In x (ptrs u).
Proof.
  intros H Hx Hu Hxu. cbn [ptrs] in H. apply NoDup_cons_iff in H as [_ H]. apply nodup_app_r in H.
  rewrite flat_map_app in H. cbn [flat_map] in H. destruct Hu as [Hu|Hu].
  - apply (nodup_app_disj _ _ x H); [apply in_flat_map; exists u; auto|apply in_or_app; tauto].
  - apply nodup_app_r in H. apply (nodup_app_disj _ _ x H Hx). apply in_flat_map. exists u. auto.
Qed.
Lemma mapn_kids y f p a k1 t k2 : NoDup (ptrs (N p a (k1 ++ t :: k2))) -> In y (nodes t) ->
  map (mapn y f) (k1 ++ t :: k2) = k1 ++ mapn y f t :: k2.
Proof.
  intros Hn Hy. rewrite map_app. cbn [map].
  assert (Id : forall l, (forall u, In u l -> In u k1 \/ In u k2) -> map (mapn y f) l = l).
  { intros l Hl. rewrite <- (map_id l) at 2. apply map_ext_in. intros u Hu. apply mapn_id. intro Hyu.
    apply nodes_in_ptrs in Hyu, Hy. exact (kid_disj _ _ _ _ _ _ _ Hn Hy (Hl u Hu) Hyu). }
  rewrite !Id by (intros; tauto). reflexivity.
Qed.
Lemma sub_root_unique t y a k : NoDup (ptrs t) -> sub t (N y a k) -> root t = y -> t = N y a k.
Proof.
  intros Hn S E. inversion S as [|p a' k' t' s Ht S']; subst; [reflexivity|]. exfalso. cbn [root] in Hn.
  cbn [ptrs root] in Hn. apply NoDup_cons_iff in Hn as [Hn _]. apply Hn. apply in_or_app; right. apply in_flat_map.
  exists t'. split; [exact Ht|]. apply (sub_ptrs _ _ S'). left. reflexivity.
Qed.

Lemma linked_mapn h h' f y a0 k0 :
  (forall par pv nx, linked h par pv nx (N y a0 k0) -> linked h' par pv nx (f (N y a0 k0))) ->
  root (f (N y a0 k0)) = y ->
  forall t par prev next, linked h par prev next t -> NoDup (ptrs t) -> sub t (N y a0 k0) ->
  (forall z, In z (ptrs t) -> ~ In z (ptrs (N y a0 k0)) -> hget h' z = hget h z) ->
  linked h' par prev next (mapn y f t) /\ root (mapn y f t) = root t.
Proof.
  intros Hf Rf. induction t as [x a k IH] using ltree_ind'. intros par prev next L Hn S Fr. cbn [mapn].
  destruct (Pos.eqb_spec x y) as [->|Hxy].
  - pose proof (sub_root_unique _ _ _ _ Hn S eq_refl) as E. injection E as -> ->. split; [apply Hf, L|exact Rf].
  - split; [|reflexivity]. inversion S as [|p a' k' t s Ht S' E1 E2]; subst; [contradiction|].
    apply in_split in Ht as (k1 & k2 & ->).
    assert (Hy : In y (nodes t)) by (apply (sub_nodes _ _ S'); left; reflexivity).
    rewrite (mapn_kids _ _ _ _ _ _ _ Hn Hy).
    apply linked_eq in L as [(c & L1 & L2 & L3) L4]. apply linkeds_app in L4 as [La [Lt Lb]].
    assert (Ho : forall z, In z (ptrs (N x a (k1 ++ t :: k2))) -> ~ In z (ptrs t) -> hget h' z = hget h z).
    { intros z Hz Hzt. apply Fr; [exact Hz|]. intro X. apply Hzt. apply (sub_ptrs _ _ S'), X. }
    rewrite Forall_forall in IH.
    destruct (IH t (in_elt t k1 k2) _ _ _ Lt (nodup_kid _ _ _ _ Hn (in_elt t k1 k2)) S') as [IH1 IH2].
    { intros z Hz. apply Fr. cbn [ptrs]. right. apply in_or_app; right. apply in_flat_map. exists t. split; [apply in_elt|exact Hz]. }
    assert (Oth : forall u, In u k1 \/ In u k2 -> agree h h' (ptrs u)).
    { intros u Hu z Hz. apply Ho.
      - cbn [ptrs]. right. apply in_or_app; right. apply in_flat_map. exists u. split; [|exact Hz].
        apply in_or_app. destruct Hu; [tauto|right; right; assumption].
      - intro X. exact (kid_disj _ _ _ _ _ _ _ Hn X Hu Hz). }
    assert (Tin : forall z, In z (ptrs t) -> In z (flat_map ptrs (k1 ++ t :: k2))).
    { intros z Hz. apply in_flat_map. exists t. split; [apply in_elt|exact Hz]. }
    pose proof Hn as Hn'. cbn [ptrs] in Hn'. apply NoDup_cons_iff in Hn' as [N1 N2].
    apply linked_eq. split.
    + exists c. refine (conj _ (conj _ _)).
      * rewrite Ho; [exact L1|left; reflexivity|]. intro X. apply N1, in_or_app. right. apply Tin, X.
      * rewrite L2, !map_app. cbn [map]. rewrite IH2. reflexivity.
      * assert (Aa : agree h h' (attptrs a)).
        { intros z Hz. apply Ho; [right; apply in_or_app; tauto|]. intro X. exact (nodup_app_disj _ _ z N2 Hz (Tin z X)). }
        apply (props_frame _ h') in L3; [|exact Aa].
        destruct (dat c); cbn [props_ok] in *; try exact L3; destruct L3 as [_ L3]; destruct k1; discriminate.
    + apply linkeds_app. cbn [map hdo linkeds] in *. rewrite IH2. refine (conj _ (conj IH1 _)).
      * eapply linkeds_map; [|exact La]. intros u Hu pv nx Lu. eapply linked_frame; [exact Lu|apply Oth; tauto].
      * eapply linkeds_map; [|exact Lb]. intros u Hu pv nx Lu. eapply linked_frame; [exact Lu|apply Oth; tauto].
Qed.

(* ---- creating an attribute ---- *)

(* the text of an attribute value as Parse hands it over: '&' written &#38; *)
Definition amp (r : Z) : list Z := if r =? 38 then s_ "&#38;" else [r].
Definition ampesc (rs : list Z) : list Z := flat_map amp rs.
Lemma ampesc_id rs : ~ In 38 rs -> ampesc rs = rs.
Proof.
  induction rs as [|r t IH]; intro H; [reflexivity|]. unfold ampesc in *. cbn [flat_map]. unfold amp at 1.
  destruct (Z.eqb_spec r 38) as [->|]; [exfalso; apply H; left; reflexivity|]. cbn [app]. f_equal. apply IH.
  intro X. apply H. right. exact X.
Qed.

Lemma refDigits_number acc base val : acc_ok acc base val -> forall l seen v0 v rest,
  number base val seen v0 l = Some (v, rest) -> refDigits acc (int32 v0) l = Some (int32 v, rest).
Proof.
  intros Hacc. induction l as [|c l IH]; intros seen v0 v rest Hn; [discriminate|].
  cbn [number refDigits] in *. destruct (Z.eqb_spec c 59) as [->|Hc].
  - destruct seen; inversion Hn; subst; auto.
  - rewrite Hacc by auto. destruct (val c) as [d|]; [|discriminate]. eapply IH; eauto.
Qed.
Lemma reference_digits s x r : reference (35 :: s) = Some (x, r) -> exists r2 rs3, s = r2 :: rs3 /\ x <> 0 /\
  (if r2 =? 120 then refDigits accHex 0 rs3 else refDigits accDec 0 s) = Some (x, r).
Proof.
  assert (F : forall base val acc l, acc_ok acc base val ->
    match number base val false 0 l with Some (n, r') => if xml_char n then Some (n, r') else None | None => None end = Some (x, r) ->
    x <> 0 /\ refDigits acc 0 l = Some (x, r)).
  { intros base val acc l Hacc H. destruct (number base val false 0 l) as [[n r']|] eqn:N; [|discriminate].
    destruct (xml_char n) eqn:X; [|discriminate]. injection H as <- <-. assert (Rg : 0 < n <= 1114111) by (unfold xml_char in X; lia).
    split; [lia|]. pose proof (refDigits_number _ _ _ Hacc _ _ _ _ _ N) as R.
    rewrite int32_small in R by lia. rewrite int32_small in R by lia. exact R. }
  intros H. destruct s as [|c s]; [discriminate|]. exists c, s. split; [reflexivity|]. destruct (Z.eqb_spec c 120) as [->|Hc].
  - apply (F 16 hex_val accHex s accHex_ok). exact H.
  - apply (F 10 dec_val accDec (c :: s) accDec_ok). rewrite <- H. unfold reference.
    destruct c as [|c|c]; try reflexivity. do 7 (destruct c as [c|c|]; try reflexivity). contradiction.
Qed.
Lemma nodeList_plain d rl : forall rs s, decodes rs s -> forall n buf h, (List.length s < n)%nat ->
  nodeList n d rs buf rl h = hbind (flushText d (buf ++ utf8 s) rl) (fun r => hret (fst r)) h.
Proof.
  induction 1 as [|r rs t Hr _ IH|s x r t Hr _ IH]; intros n buf h L; (destruct n as [|n]; [lia|]).
  - cbn [nodeList utf8 flat_map]. rewrite app_nil_r. reflexivity.
  - cbn [List.length] in L. cbn [nodeList]. rewrite (proj2 (Z.eqb_neq r 38) Hr). cbn [negb]. rewrite IH by lia.
    rewrite <- app_assoc. reflexivity.
  - cbn [List.length] in L. destruct (reference_digits _ _ _ Hr) as (r2 & rs3 & -> & Hx & Dg).
    cbn [nodeList]. change (negb (38 =? 38)) with false. change (35 =? 35) with true. cbv iota. rewrite Dg.
    rewrite (proj2 (Z.eqb_neq x 0) Hx). rewrite IH by lia. rewrite <- app_assoc. reflexivity.
Qed.
Lemma decodes_amp s : decodes (ampesc s) s.
Proof.
  induction s as [|r t IH]; [constructor|]. unfold ampesc. cbn [flat_map]. fold (ampesc t). unfold amp.
  destruct (Z.eqb_spec r 38) as [->|Hr].
  - eapply (dec_ref (51 :: 56 :: 59 :: ampesc t)); [reflexivity|exact IH].
  - apply dec_char; [exact Hr|exact IH].
Qed.
Lemma decodes_plain s : ~ In 38 s -> decodes s s.
Proof. induction s as [|r s IH]; intro N; [constructor|]. apply dec_char; [intros ->; apply N; now left|]. apply IH. intro X. apply N. now right. Qed.
Lemma decodes_length rs s : decodes rs s -> (List.length s <= List.length rs)%nat.
Proof.
  induction 1 as [| |s x r t Hr _ IH]; cbn [List.length]; try lia.
  destruct (reference_digits _ _ _ Hr) as (r2 & rs3 & -> & _ & Dg).
  assert (L : forall acc l v v' l', refDigits acc v l = Some (v', l') -> (List.length l' <= List.length l)%nat).
  { clear. induction l as [|c l IH]; intros v v' l' D; [discriminate|]. cbn [refDigits] in D. destruct (c =? 59); [injection D as _ <-; cbn; lia|].
    destruct (acc v c); [|discriminate]. apply IH in D. cbn. lia. }
  destruct (r2 =? 120); apply L in Dg; cbn in *; lia.
Qed.
Lemma decodes_nil rs s : decodes rs s -> rs = [] <-> s = [].
Proof. intros []; split; intros; try discriminate; reflexivity. Qed.

(* the heap after CreateAttribute *)
Definition attr_cell (name : str) (ks : list ptr) : cell :=
  {| lk := Lk (hd_error ks) None None None None; owner := None; dat := DAttr name false |}.
Definition made (h : heap) (o : option ptr) (name text : str) (a : ptr) (ks : list ptr) (h' : heap) : Prop :=
  a = nxt h /\
  match text with
  | [] => ks = [] /\ nxt h' = Pos.succ a /\
          forall x, hget h' x = if Pos.eqb x a then Some (attr_cell name ks) else hget h x
  | _ => ks = [Pos.succ a] /\ nxt h' = Pos.succ (Pos.succ a) /\
         forall x, hget h' x = if Pos.eqb x a then Some (attr_cell name ks)
                               else if Pos.eqb x (Pos.succ a)
                                    then Some {| lk := Lk None None (Some a) None None; owner := o; dat := DText text |}
                                    else hget h x
  end.

Lemma utf8_nonempty r rs : utf8 (r :: rs) <> [].
Proof. unfold utf8. cbn [flat_map]. intro E. apply app_eq_nil in E as [E _]. exact (encode_nonempty _ E). Qed.

Lemma CreateAttribute_run n h o name value s :
  hok h -> decodes (runes_of value) s -> (value = [] <-> s = []) -> (List.length s < n)%nat ->
  exists a ks h', CreateAttribute n o name value h = (Ret a, h') /\ made h o name (utf8 s) a ks h'.
Proof.
  intros Hk Er Ev Ln. unfold CreateAttribute. rewrite (hbind_ret _ _ _ _ _ (alloc_run _ _ _)).
  destruct value as [|v vs].
  - assert (s = []) as -> by (apply Ev; reflexivity). exists (nxt h), []. eexists. split; [reflexivity|].
    split; [reflexivity|]. cbn [utf8 flat_map]. refine (conj eq_refl (conj eq_refl _)). intro x.
    match goal with |- hget ?H x = _ => change H with (with_new h (attr_cell name [])) end. apply hget_new.
  - destruct s as [|r rs]; [assert (v :: vs = []) by (apply Ev; reflexivity); discriminate|].
    set (h1 := {| cells := _; nxt := Pos.succ (nxt h) |}).
    assert (E1 : stringToNodeList n o (v :: vs) h1 =
                 (Ret (Some (Pos.succ (nxt h))), with_new h1 {| lk := nolinks; owner := o; dat := DText (utf8 (r :: rs)) |})).
    { unfold stringToNodeList. rewrite (nodeList_plain _ _ _ _ Er) by exact Ln. cbn [app]. unfold flushText.
      destruct (utf8 (r :: rs)) as [|b bs] eqn:Eu; [exfalso; exact (utf8_nonempty _ _ Eu)|]. reflexivity. }
    erewrite hbind_ret; [|exact E1]. set (h2 := with_new h1 _) in *.
    assert (G1 : forall x, hget h1 x = if Pos.eqb x (nxt h) then Some {| lk := nolinks; owner := None; dat := DAttr name false |} else hget h x).
    { intro x. unfold h1. apply (hget_new h). }
    assert (G2 : forall x, hget h2 x = if Pos.eqb x (Pos.succ (nxt h)) then Some {| lk := nolinks; owner := o; dat := DText (utf8 (r :: rs)) |} else hget h1 x).
    { intro x. unfold h2. rewrite hget_new. reflexivity. }
    assert (Ne : nxt h <> Pos.succ (nxt h)) by lia.
    unfold setFirst. erewrite bind_upd.
    2:{ rewrite G2. destruct (Pos.eqb_spec (nxt h) (Pos.succ (nxt h))); [contradiction|]. rewrite G1, Pos.eqb_refl. reflexivity. }
    match goal with |- context [hset h2 (nxt h) ?C] => set (h3 := hset h2 (nxt h) C) in * end.
    assert (G3 : hget h3 (Pos.succ (nxt h)) = Some {| lk := nolinks; owner := o; dat := DText (utf8 (r :: rs)) |}).
    { unfold h3. rewrite hget_hset_other by congruence. rewrite G2, Pos.eqb_refl. reflexivity. }
    assert (E2 : exists h4, setParents (size h3) (nxt h) true (Some (Pos.succ (nxt h))) h3 = (Ret tt, h4) /\
                 nxt h4 = nxt h3 /\
                 forall x, hget h4 x = if Pos.eqb x (Pos.succ (nxt h))
                   then Some {| lk := Lk None None (Some (nxt h)) None None; owner := o; dat := DText (utf8 (r :: rs)) |} else hget h3 x).
    { unfold size. cbn [setParents]. unfold setPar, setLast. erewrite bind_upd; [|exact G3].
      erewrite bind_getc; [|apply hget_hset_same]. cbv beta. cbn [with_lk lk lset_par nolinks l_next].
      erewrite bind_upd; [|apply hget_hset_same].
      destruct (Pos.to_nat (nxt h3)); cbn [setParents]; (eexists; split; [reflexivity|]; split; [reflexivity|];
        intro x; rewrite !hget_hset; destruct (Pos.eqb_spec x (Pos.succ (nxt h))); reflexivity). }
    destruct E2 as (h4 & E2 & N4 & G4). erewrite hbind_ret; [|exact E2].
    exists (nxt h), [Pos.succ (nxt h)], h4. split; [reflexivity|]. split; [reflexivity|].
    destruct (utf8 (r :: rs)) as [|b bs] eqn:Eu; [exfalso; exact (utf8_nonempty _ _ Eu)|].
    refine (conj eq_refl (conj _ _)); [rewrite N4; reflexivity|]. intro x. rewrite G4.
    destruct (Pos.eqb_spec x (Pos.succ (nxt h))) as [->|].
    + destruct (Pos.eqb_spec (Pos.succ (nxt h)) (nxt h)); [congruence|reflexivity].
    + unfold h3. rewrite hget_hset. destruct (Pos.eqb_spec x (nxt h)) as [->|]; [reflexivity|].
      rewrite G2. destruct (Pos.eqb_spec x (Pos.succ (nxt h))); [contradiction|]. rewrite G1.
      destruct (Pos.eqb_spec x (nxt h)); [contradiction|reflexivity].
Qed.

Lemma made_old h o name text a ks h' x : made h o name text a ks h' -> (x < nxt h)%positive -> hget h' x = hget h x.
Proof.
  intros [-> M] Hx. destruct text.
  - destruct M as (_ & _ & M). rewrite M. peq; [lia|reflexivity].
  - destruct M as (_ & _ & M). rewrite M. peq; [lia|lia|reflexivity].
Qed.
Lemma made_new h o name text a ks h' x : made h o name text a ks h' -> In x (a :: ks) -> (nxt h <= x)%positive.
Proof. intros [-> M]. destruct text; destruct M as (-> & _); cbn; intros H; decompose [or] H; subst; try lia; contradiction. Qed.
Lemma made_chain h o name text a ks h' : made h o name text a ks h' -> achain h' None [(a, ks)].
Proof.
  intros [-> M]. cbn [achain map hd_error]. destruct text as [|b bs].
  - destruct M as (-> & _ & M). refine (conj _ (conj I I)). eexists. split; [rewrite M, Pos.eqb_refl; reflexivity|]. cbn. eauto.
  - destruct M as (-> & _ & M). refine (conj _ (conj _ I)).
    + eexists. split; [rewrite M, Pos.eqb_refl; reflexivity|]. cbn. eauto.
    + cbn [vchain]. split; [|exact I]. eexists. split.
      { rewrite M, Pos.eqb_refl. destruct (Pos.eqb_spec (Pos.succ (nxt h)) (nxt h)); [lia|reflexivity]. }
      cbn. eauto.
Qed.
Lemma forest_made h F G o name text a ks h' : forest h F G -> made h o name text a ks h' -> forest h' F ((a, ks) :: G).
Proof.
  intros FH M. pose proof FH as [H1 H2 H3 H4 H5].
  assert (Old : agree h h' (fptrs F ++ attptrs G)).
  { intros x Hx. eapply made_old; [exact M|]. pose proof (forest_ptr_live _ _ _ _ FH Hx) as Lx.
    destruct (hget h x) as [c|] eqn:E; [exact (H1 _ _ E)|contradiction]. }
  apply agree_app in Old as [O1 O2].
  assert (NdN : NoDup (a :: ks)).
  { destruct M as [-> M]. destruct text; destruct M as (-> & _).
    - repeat constructor. intros [].
    - repeat constructor; [intros [X|[]]; lia|intros []]. }
  assert (Dis : forall x, In x (a :: ks) -> ~ In x (fptrs F ++ attptrs G)).
  { intros x Hx X. apply (made_new _ _ _ _ _ _ _ _ M) in Hx. apply (forest_ptr_live _ _ _ _ FH) in X.
    destruct (hget h x) as [c|] eqn:E; [apply H1 in E; lia|contradiction]. }
  assert (PP : Permutation ((a :: ks) ++ fptrs F ++ attptrs G) (fptrs F ++ attptrs ((a, ks) :: G))).
  { change (attptrs ((a, ks) :: G)) with ((a :: ks) ++ attptrs G). rewrite !app_assoc. apply Permutation_app_tail, Permutation_app_comm. }
  constructor.
  - intros x c. destruct M as [-> M]. destruct text; destruct M as (_ & N' & M); rewrite M, N'; peq; intro E; try lia;
      (assert (x < nxt h)%positive by (eapply H1; exact E); lia).
  - eapply groups_frame; eassumption.
  - constructor; [eapply made_chain, M|eapply ga_frame; eassumption].
  - eapply Permutation_NoDup; [exact PP|]. clear - NdN Dis H4. revert NdN Dis. generalize (a :: ks). intros l N D.
    induction l as [|x l IH]; [exact H4|]. cbn [app]. apply NoDup_cons_iff in N as [N1 N2]. constructor.
    + intro X. apply in_app_or in X as [X|X]; [contradiction|]. apply (D x); [left; reflexivity|exact X].
    + apply IH; [exact N2|]. intros y Hy. apply D. right. exact Hy.
  - intros x Hx. eapply Permutation_in; [exact PP|]. rewrite in_app_iff.
    destruct M as [-> M]. destruct text; destruct M as (-> & _ & M); rewrite M in Hx; revert Hx; peq; intro Hx; cbn; auto.
Qed.

(* ---- the attributes of an element ---- *)
Lemma achain_path h l : forall prev, achain h prev l -> path h (hd_error (map fst l)) (map fst l).
Proof.
  induction l as [|[a ks] r IH]; intros prev V; [constructor|]. cbn [achain] in V.
  destruct V as [(c & V1 & V2 & _) [_ V5]]. cbn [map fst hd_error]. econstructor; [exact V1|]. rewrite V2. cbn [l_next]. eapply IH, V5.
Qed.
Lemma achain_attr h l : forall prev a, achain h prev l -> In a (map fst l) -> exists c nm df, hget h a = Some c /\ dat c = DAttr nm df.
Proof.
  induction l as [|[x ks] r IH]; intros prev a V H; [destruct H|]. cbn [achain] in V.
  destruct V as [(c & V1 & V2 & nm & df & V3) [_ V5]]. destruct H as [<-|H]; [eauto|eauto].
Qed.
(* the names of the attributes in a chain *)
Definition attr_named (h : heap) (name : str) (a : ptr) : Prop :=
  exists c df, hget h a = Some c /\ dat c = DAttr name df.

Lemma lastAttr_run h name : forall l n p, path h (Some p) l ->
  (forall a, In a l -> exists c nm df, hget h a = Some c /\ dat c = DAttr nm df) -> (List.length l <= n)%nat ->
  ((exists a, In a l /\ attr_named h name a) /\ lastAttr n name p h = (Fail "ErrDuplicateAttribute"%string, h)) \/
  (~ (exists a, In a l /\ attr_named h name a) /\ exists z, lasto l = Some z /\ lastAttr n name p h = (Ret z, h)).
Proof.
  induction l as [|x r IH]; intros n p P At L; [inversion P|]. inversion P as [|p' c r' P1 P2]; subst.
  destruct n as [|n]; [cbn in L; lia|]. cbn [lastAttr].
  destruct (At x (or_introl eq_refl)) as (c' & nm & df & E & D). rewrite E in P1. injection P1 as ->.
  rewrite (bind_getc _ _ _ _ E). cbv beta. rewrite D. destruct (str_eqb nm name) eqn:En.
  - left. split; [|reflexivity]. apply str_eqb_eq in En. subst nm. exists x. split; [left; reflexivity|]. exists c, df. auto.
  - assert (Nx : ~ attr_named h name x).
    { intros (c2 & df2 & E2 & D2). rewrite E in E2. injection E2 as <-. rewrite D in D2. injection D2 as -> _.
      rewrite str_eqb_refl in En. discriminate. }
    destruct r as [|y r2].
    + right. split.
      * intros (a & [<-|[]] & X). contradiction.
      * exists x. split; [reflexivity|]. inversion P2 as [E2|]. reflexivity.
    + assert (Ey : l_next (lk c) = Some y) by (inversion P2; reflexivity). rewrite Ey. rewrite Ey in P2.
      destruct (IH n y P2) as [[(a & Ha & X) R]|[X (z & Z & R)]].
      * intros a Ha. apply At. right. exact Ha.
      * cbn [List.length] in *. lia.
      * left. split; [|exact R]. exists a. split; [right; exact Ha|exact X].
      * right. split; [|exists z; split; [exact Z|exact R]].
        intros (a & [<-|Ha] & Y); [contradiction|]. apply X. eauto.
Qed.

(* a joins the attributes of e *)
Definition attr_added (h : heap) (e : ptr) (atts : list ptr) (a : ptr) (h' : heap) : Prop :=
  nxt h' = nxt h /\
  match lasto atts with
  | None => exists c nm ns defs, hget h e = Some c /\ dat c = DElem nm ns defs None /\
      forall x, hget h' x = if Pos.eqb x e then Some (with_dat (DElem nm ns defs (Some a)) c) else hget h x
  | Some l => forall x, hget h' x = if Pos.eqb x a then option_map (with_lk (lset_prev (Some l))) (hget h a)
                                    else if Pos.eqb x l then option_map (with_lk (lset_next (Some a))) (hget h l)
                                    else hget h x
  end.

Lemma achain_snoc h h' l a ks : forall A prev kl,
  achain h prev (A ++ [(l, kl)]) -> achain h None [(a, ks)] ->
  NoDup (attptrs (A ++ [(l, kl)]) ++ a :: ks) ->
  (forall x, hget h' x = if Pos.eqb x a then option_map (with_lk (lset_prev (Some l))) (hget h a)
                         else if Pos.eqb x l then option_map (with_lk (lset_next (Some a))) (hget h l)
                         else hget h x) ->
  achain h' prev ((A ++ [(l, kl)]) ++ [(a, ks)]).
Proof.
  induction A as [|[x kx] A IH]; intros prev kl V Va Nd B.
  - cbn [app] in *. cbn [achain] in V, Va |- *. destruct V as [(c & V1 & V2 & V3) [V4 _]]. destruct Va as [(ca & A1 & A2 & A3) [A4 _]].
    assert (Et : attptrs [(l, kl)] = l :: kl) by (cbn; rewrite app_nil_r; reflexivity). rewrite Et in Nd.
    assert (Nla : l <> a) by (intros ->; apply (nodup_app_disj _ _ a Nd); left; reflexivity).
    assert (Fl : agree h h' kl).
    { intros z Hz. rewrite B. peq; [exfalso|exfalso|reflexivity].
      - apply (nodup_app_disj _ _ a Nd); [right; exact Hz|left; reflexivity].
      - apply nodup_app_l in Nd. inversion Nd; contradiction. }
    assert (Fa : agree h h' ks).
    { intros z Hz. rewrite B. peq; [exfalso|exfalso|reflexivity].
      - apply nodup_app_r in Nd. inversion Nd; contradiction.
      - apply (nodup_app_disj _ _ l Nd); [left; reflexivity|right; exact Hz]. }
    refine (conj _ (conj _ (conj _ (conj _ I)))).
    + eexists. split; [rewrite B; destruct (Pos.eqb_spec l a); [contradiction|]; rewrite Pos.eqb_refl, V1; reflexivity|].
      cbn [with_lk lk dat map fst hd_error]. rewrite V2. split; [reflexivity|exact V3].
    + eapply vchain_frame; eassumption.
    + eexists. split; [rewrite B, Pos.eqb_refl, A1; reflexivity|]. cbn [with_lk lk dat]. rewrite A2. split; [reflexivity|exact A3].
    + eapply vchain_frame; eassumption.
  - cbn [app achain] in V |- *. destruct V as [(c & V1 & V2 & V3) [V4 V5]].
    change (attptrs (((x, kx) :: A) ++ [(l, kl)])) with ((x :: kx) ++ attptrs (A ++ [(l, kl)])) in Nd.
    rewrite <- app_assoc in Nd.
    assert (Hl : In l (attptrs (A ++ [(l, kl)]))) by (unfold attptrs; rewrite flat_map_app; apply in_or_app; right; left; reflexivity).
    assert (Fx : agree h h' (x :: kx)).
    { intros z Hz. rewrite B. peq; [exfalso|exfalso|reflexivity].
      - apply (nodup_app_disj _ _ a Nd Hz). apply in_or_app; right; left; reflexivity.
      - apply (nodup_app_disj _ _ l Nd Hz). apply in_or_app; tauto. }
    apply agree_cons in Fx as [F1 F2]. refine (conj _ (conj _ _)).
    + exists c. refine (conj _ (conj _ V3)); [rewrite F1; exact V1|]. rewrite V2. f_equal.
      rewrite !map_app. destruct (map fst A); reflexivity.
    + eapply vchain_frame; eassumption.
    + apply IH; try assumption. eapply nodup_app_r; exact Nd.
Qed.

Definition addatt (x : ptr * list ptr) (t : ltree) : ltree := match t with N p a k => N p (a ++ [x]) k end.

Lemma linked_addatt h h' e A k a ks par pv nx :
  linked h par pv nx (N e A k) -> achain h None [(a, ks)] ->
  NoDup (ptrs (N e A k) ++ a :: ks) ->
  (forall c, hget h e = Some c -> typeOf (dat c) = ElementNode) ->
  attr_added h e (map fst A) a h' -> linked h' par pv nx (N e (A ++ [(a, ks)]) k).
Proof.
  intros L Va Nd Te [_ B]. apply linked_eq in L as [(c & L1 & L2 & L3) L4]. specialize (Te c L1).
  destruct (dat c) as [|nm ns defs props| | | | | | | | | ] eqn:Ed; cbn in Te; try discriminate. cbn [props_ok] in L3.
  destruct L3 as [L3 L5]. cbn [ptrs app] in Nd. apply NoDup_cons_iff in Nd as [Ne Nd]. rewrite <- app_assoc in Nd, Ne.
  destruct (snoc_cases A) as [->|(A1 & [l kl] & ->)].
  - cbn [map lasto] in B. destruct B as (c' & nm' & ns' & defs' & B1 & B2 & B3). rewrite L1 in B1. injection B1 as <-.
    rewrite Ed in B2. injection B2 as <- <- <- ->.
    assert (Fr : forall z, z <> e -> hget h' z = hget h z) by (intros z Hz; rewrite B3; peq; [contradiction|reflexivity]).
    apply linked_eq. split.
    + eexists. split; [rewrite B3, Pos.eqb_refl; reflexivity|]. cbn [with_dat lk dat app map]. split; [exact L2|].
      cbn [props_ok app map fst hd_error]. split; [reflexivity|]. eapply achain_frame; [exact Va|].
      intros z Hz. apply Fr. intros ->. apply Ne. cbn [attptrs flat_map app] in *. rewrite app_nil_r in Hz.
      apply in_or_app; right. exact Hz.
    + eapply linkeds_frame; [exact L4|]. intros z Hz. apply Fr. intros ->. apply Ne. cbn [attptrs flat_map app].
      apply in_or_app; left. exact Hz.
  - rewrite map_app in B. cbn [map fst] in B. rewrite lasto_snoc in B.
    assert (Hl : In l (attptrs (A1 ++ [(l, kl)]))) by (unfold attptrs; rewrite flat_map_app; apply in_or_app; right; left; reflexivity).
    assert (Fr : forall z, z <> a -> z <> l -> hget h' z = hget h z) by (intros z Z1 Z2; rewrite B; peq; [contradiction..|reflexivity]).
    apply linked_eq. split.
    + exists c. refine (conj _ (conj L2 _)).
      * rewrite Fr; [exact L1|intros ->; apply Ne; rewrite !in_app_iff; right; right; left; reflexivity|].
        intros ->. apply Ne. rewrite !in_app_iff. tauto.
      * rewrite Ed. cbn [props_ok]. split; [rewrite L3; rewrite !map_app; destruct (map fst A1); reflexivity|].
        eapply achain_snoc; [exact L5|exact Va| |exact B].
        clear - Nd. revert Nd. generalize (attptrs (A1 ++ [(l, kl)])) (flat_map ptrs k) (a :: ks). intros X Y Z Hn.
        induction X as [|z X IHX]; cbn in *; [eapply nodup_app_r; exact Hn|].
        apply NoDup_cons_iff in Hn as [X1 X2]. constructor; [|auto]. intro H. apply X1. rewrite !in_app_iff in *. tauto.
    + eapply linkeds_frame; [exact L4|]. intros z Hz. apply Fr; intros ->.
      * apply nodup_app_r in Nd. apply (nodup_app_disj _ _ a Nd Hz). left. reflexivity.
      * apply (nodup_app_disj _ _ l Nd Hl). apply in_or_app; tauto.
Qed.

Lemma ptrs_addatt x e A k t : NoDup (ptrs t) -> sub t (N e A k) ->
  Permutation (ptrs (mapn e (addatt x) t)) (ptrs t ++ fst x :: snd x).
Proof.
  intros Hn S. revert Hn. remember (N e A k) as s eqn:Es. revert Es. induction S as [t|p a k' t s Ht S IH]; intros Es Hn.
  - subst t. cbn [mapn]. rewrite Pos.eqb_refl. cbn [addatt ptrs app]. constructor. unfold attptrs. rewrite flat_map_app. cbn [flat_map].
    rewrite app_nil_r, <- !app_assoc. apply Permutation_app_head, Permutation_app_comm.
  - subst s. cbn [mapn]. destruct (Pos.eqb_spec p e) as [->|Hne].
    + exfalso. cbn [ptrs] in Hn. apply NoDup_cons_iff in Hn as [Hn _]. apply Hn, in_or_app. right. apply in_flat_map. exists t.
      split; [exact Ht|]. apply (sub_ptrs _ _ S). left. reflexivity.
    + apply in_split in Ht as (k1 & k2 & ->).
      assert (Hy : In e (nodes t)) by (apply (sub_nodes _ _ S); left; reflexivity).
      rewrite (mapn_kids _ _ _ _ _ _ _ Hn Hy). cbn [ptrs app]. rewrite !flat_map_app. cbn [flat_map].
      rewrite (IH eq_refl (nodup_kid _ _ _ _ Hn (in_elt t k1 k2))). constructor. rewrite <- !app_assoc.
      apply Permutation_app_head, Permutation_app_head, Permutation_app_head. apply Permutation_app_comm.
Qed.

Lemma attr_added_live h e A a h' x : attr_added h e A a h' -> hget h' x <> None -> hget h x <> None.
Proof.
  intros [_ B]. destruct (lasto A).
  - rewrite B. peq; [destruct (hget h a); cbn; congruence|destruct (hget h p); cbn; congruence|auto].
  - destruct B as (c & nm & ns & defs & B1 & _ & B3). rewrite B3. peq; [congruence|auto].
Qed.

Lemma forest_addatt h h' g1 t g2 F G e A k a ks :
  forest h ((g1 ++ t :: g2) :: F) ((a, ks) :: G) -> sub t (N e A k) ->
  (forall c, hget h e = Some c -> typeOf (dat c) = ElementNode) ->
  attr_added h e (map fst A) a h' ->
  forest h' ((g1 ++ mapn e (addatt (a, ks)) t :: g2) :: F) G.
Proof.
  intros [H1 H2 H3 H4 H5] S Te Ad.
  apply Forall_cons_iff in H2 as [Lg H2]. apply Forall_cons_iff in H3 as [Va H3].
  apply linkeds_app in Lg as [La [Lt Lb]].
  rewrite fptrs_cons, flat_map_app in H4. cbn [flat_map] in H4.
  change (attptrs ((a, ks) :: G)) with ((a :: ks) ++ attptrs G) in H4. rewrite <- !app_assoc in H4.
  assert (Ht : NoDup (ptrs t)) by (apply nodup_app_r, nodup_app_l in H4; exact H4).
  assert (He : In e (ptrs (N e A k))) by (left; reflexivity).
  (* only e, the last attribute of e, and a change *)
  assert (Fr : forall z, ~ In z (ptrs (N e A k)) -> z <> a -> hget h' z = hget h z).
  { intros z Z1 Z2. destruct Ad as [_ B]. destruct (snoc_cases A) as [->|(A1 & [l kl] & ->)].
    - cbn [map lasto] in B. destruct B as (c & nm & ns & defs & _ & _ & B). rewrite B. peq; [contradiction|reflexivity].
    - rewrite map_app in B. cbn [map fst] in B. rewrite lasto_snoc in B. rewrite B. peq; [contradiction| |reflexivity].
      exfalso. apply Z1. cbn [ptrs]. right. apply in_or_app; left. unfold attptrs. rewrite flat_map_app. apply in_or_app; right. left. reflexivity. }
  assert (Hdis : forall z, In z (flat_map ptrs g1) \/ In z (flat_map ptrs g2) \/ In z (fptrs F) \/ In z (attptrs G) ->
                 ~ In z (ptrs (N e A k)) /\ z <> a).
  { intros z Hz.
    assert (Hsub : In z (ptrs (N e A k)) -> In z (ptrs t)) by apply (sub_ptrs _ _ S).
    assert (Ha : z = a -> In z (a :: ks)) by (intros ->; left; reflexivity).
    destruct Hz as [Hz|Hz].
    - split; intro E; apply (nodup_app_disj _ _ z H4 Hz); rewrite !in_app_iff; tauto.
    - apply nodup_app_r in H4. split; intro E.
      + apply (nodup_app_disj _ _ z H4 (Hsub E)). rewrite !in_app_iff. tauto.
      + apply nodup_app_r in H4. apply Ha in E. destruct Hz as [Hz|[Hz|Hz]].
        * apply (nodup_app_disj _ _ z H4 Hz). rewrite !in_app_iff. tauto.
        * apply nodup_app_r in H4. apply (nodup_app_disj _ _ z H4 Hz). rewrite !in_app_iff. tauto.
        * apply nodup_app_r, nodup_app_r in H4. exact (nodup_app_disj _ _ z H4 E Hz). }
  assert (Nta : NoDup (ptrs t ++ a :: ks)).
  { apply nodup_app_r in H4. clear - H4. revert H4. generalize (ptrs t) (flat_map ptrs g2) (fptrs F) (a :: ks) (attptrs G).
    intros X Y Z W V Hn. induction X as [|z X IH]; cbn in *.
    - apply nodup_app_r, nodup_app_r, nodup_app_l in Hn. exact Hn.
    - apply NoDup_cons_iff in Hn as [N1 N2]. constructor; [|auto]. intro H. apply N1. rewrite !in_app_iff in *. tauto. }
  assert (Nsa : forall s, sub t s -> NoDup (ptrs s ++ a :: ks)).
  { intros s Ss.
    assert (Ns : NoDup (ptrs s)).
    { clear - Ss Ht. induction Ss as [t|p a k t s Hk S IH]; [exact Ht|]. apply IH. eapply nodup_kid; eassumption. }
    pose proof (sub_ptrs _ _ Ss) as Is. clear - Ns Is Nta. revert Is. induction (ptrs s) as [|z l IH]; intro Is; cbn.
    - eapply nodup_app_r; exact Nta.
    - apply NoDup_cons_iff in Ns as [N1 N2]. constructor; [|apply IH; [exact N2|intros y Hy; apply Is; right; exact Hy]].
      intro X. apply in_app_or in X as [X|X]; [contradiction|]. apply (nodup_app_disj _ _ z Nta); [apply Is; left; reflexivity|exact X]. }
  destruct (linked_mapn h h' (addatt (a, ks)) e A k) with (t := t) (par := @None ptr) (prev := lsto (map root g1) None)
      (next := hdo (map root g2) None) as [L' R'].
  - intros par pv nx L. cbn [addatt]. eapply linked_addatt; [exact L|exact Va|apply Nsa, S|exact Te|exact Ad].
  - reflexivity.
  - exact Lt.
  - exact Ht.
  - exact S.
  - intros z Hz Hz'. apply Fr; [exact Hz'|]. intros ->. apply (nodup_app_disj _ _ a Nta Hz). left. reflexivity.
  - assert (PP : Permutation (fptrs ((g1 ++ t :: g2) :: F) ++ attptrs ((a, ks) :: G))
                             (fptrs ((g1 ++ mapn e (addatt (a, ks)) t :: g2) :: F) ++ attptrs G)).
    { rewrite !fptrs_cons. rewrite !flat_map_app. cbn [flat_map]. rewrite (ptrs_addatt _ _ _ _ _ Ht S).
      change (attptrs ((a, ks) :: G)) with ((a :: ks) ++ attptrs G). cbn [fst snd]. rewrite <- !app_assoc.
      apply Permutation_app_head, Permutation_app_head.
      rewrite (app_assoc (flat_map ptrs g2)), (app_assoc _ (a :: ks)), (app_assoc (a :: ks)).
      rewrite (app_assoc _ (fptrs F) (attptrs G)). apply Permutation_app_tail. rewrite <- (app_assoc (a :: ks)). apply Permutation_app_comm. }
    constructor.
    + intros x c E. assert (hget h x <> None) as X by (eapply attr_added_live; [exact Ad|congruence]).
      destruct Ad as [N' _]. rewrite N'.
      destruct (hget h x) as [c0|] eqn:E0; [exact (H1 _ _ E0)|contradiction].
    + constructor.
      * apply linkeds_app. cbn [map hdo linkeds] in *. rewrite R'. refine (conj _ (conj L' _)).
        -- eapply linkeds_frame; [exact La|]. intros z Hz. apply Fr; apply Hdis; tauto.
        -- eapply linkeds_frame; [exact Lb|]. intros z Hz. apply Fr; apply Hdis; tauto.
      * eapply groups_frame; [exact H2|]. intros z Hz. apply Fr; apply Hdis; tauto.
    + eapply ga_frame; [exact H3|]. intros z Hz. apply Fr; apply Hdis; tauto.
    + eapply Permutation_NoDup; [exact PP|]. rewrite fptrs_cons, flat_map_app. cbn [flat_map].
      change (attptrs ((a, ks) :: G)) with ((a :: ks) ++ attptrs G). rewrite <- !app_assoc. exact H4.
    + intros x Hx. eapply Permutation_in; [exact PP|]. apply H5. eapply attr_added_live; eassumption.
Qed.
