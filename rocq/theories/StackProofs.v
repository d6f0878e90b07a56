From Verif Require Import Base Stack.

Section Proofs.
Variable A : Type.
Variable zero : A.
Variable grow : nat -> nat.

(* The abstract stack: a list, oldest first. *)
Definition spec_op (l : list A) (o : op A) : list A :=
  match o with
  | OPush x => l ++ [x]
  | OPop n => firstn (List.length l - Z.to_nat n) l
  end.

(* A state is well formed when the window lies inside its array. *)
Definition wfs (st : mem A * slice) : Prop :=
  let '(m, s) := st in
  (arr s < List.length m)%nat /\ (off s + len s <= List.length (array A m (arr s)))%nat.

Lemma upd_length {B} (l : list B) i x : List.length (upd l i x) = List.length l.
Proof. revert i; induction l as [|y l IH]; intros [|i]; cbn; congruence. Qed.

Lemma nth_upd_same {B} (l : list B) i x d : (i < List.length l)%nat -> nth i (upd l i x) d = x.
Proof. revert i; induction l as [|y l IH]; intros [|i] H; cbn in *; try lia; [reflexivity|]. apply IH. lia. Qed.

Lemma nth_upd_other {B} (l : list B) i j x d : i <> j -> nth j (upd l i x) d = nth j l d.
Proof.
  revert i j; induction l as [|y l IH]; intros [|i] [|j] H; cbn; try reflexivity; try congruence.
  apply IH. congruence.
Qed.

Lemma firstn_upd {B} (l : list B) i x n : (n <= i)%nat -> firstn n (upd l i x) = firstn n l.
Proof.
  revert i n; induction l as [|y l IH]; intros [|i] [|n] H; cbn; try reflexivity; try lia.
  f_equal. apply IH. lia.
Qed.

Lemma skipn_upd {B} (l : list B) i o x : skipn o (upd l (o + i) x) = upd (skipn o l) i x.
Proof.
  revert o; induction l as [|y l IH]; intros [|o]; cbn; try reflexivity.
  apply IH.
Qed.

Lemma firstn_S_upd {B} (l : list B) i x : (i < List.length l)%nat -> firstn (S i) (upd l i x) = firstn i l ++ [x].
Proof.
  revert i; induction l as [|y l IH]; intros [|i] H; cbn in *; try lia; [reflexivity|].
  f_equal. apply IH. lia.
Qed.

Lemma elems_length st : wfs st -> List.length (elems (fst st) (snd st)) = len (snd st).
Proof.
  destruct st as [m s]. unfold wfs. cbn [fst snd]. intros [H1 H2]. unfold elems.
  rewrite firstn_length, skipn_length. unfold array in *. lia.
Qed.

Lemma append1_ok m s x :
  wfs (m, s) ->
  let '(m', s') := append1 A zero grow m s x in
  wfs (m', s') /\ elems m' s' = elems m s ++ [x].
Proof.
  intros Hwf. assert (Hl := elems_length _ Hwf). cbn [fst snd] in Hl.
  destruct Hwf as [H1 H2]. unfold append1.
  destruct (len s <? scap A m s)%nat eqn:E.
  - unfold scap in E. apply Nat.ltb_lt in E.
    assert (Ha : array A (upd m (arr s) (upd (array A m (arr s)) (off s + len s) x)) (arr s)
                 = upd (array A m (arr s)) (off s + len s) x).
    { unfold array at 1. apply nth_upd_same. exact H1. }
    split.
    + split; cbn [arr off len]; [rewrite upd_length; exact H1|]. rewrite Ha, upd_length. lia.
    + unfold elems. cbn [arr off len]. rewrite Ha, skipn_upd.
      apply firstn_S_upd. rewrite skipn_length. lia.
  - assert (Ha : array A (m ++ [(elems m s ++ [x]) ++ repeat zero (grow (len s))]) (List.length m)
                 = (elems m s ++ [x]) ++ repeat zero (grow (len s))).
    { unfold array. rewrite app_nth2 by lia. rewrite Nat.sub_diag. reflexivity. }
    split.
    + split; cbn [arr off len]; [rewrite app_length; cbn [List.length]; lia|].
      rewrite Ha, !app_length. cbn [List.length]. lia.
    + unfold elems at 1. cbn [arr off len]. rewrite Ha. cbn [skipn].
      rewrite firstn_app.
      replace (S (len s) - List.length (elems m s ++ [x]))%nat with 0%nat by (rewrite app_length; cbn [List.length]; lia).
      rewrite firstn_O, app_nil_r. apply firstn_all2. rewrite app_length. cbn [List.length]. lia.
Qed.

Lemma realloc_ok m s :
  wfs (m, s) -> let '(m', s') := realloc A m s in wfs (m', s') /\ elems m' s' = elems m s.
Proof.
  intros Hwf. assert (Hl := elems_length _ Hwf). cbn [fst snd] in Hl. destruct Hwf as [H1 H2].
  unfold realloc.
  assert (Ha : array A (m ++ [elems m s]) (List.length m) = elems m s).
  { unfold array. rewrite app_nth2 by lia. rewrite Nat.sub_diag. reflexivity. }
  split.
  - split; cbn [arr off len]; [rewrite app_length; cbn [List.length]; lia|]. rewrite Ha. lia.
  - unfold elems at 1. cbn [arr off len]. rewrite Ha. cbn [skipn]. apply firstn_all2. lia.
Qed.

Lemma firstn_firstn_min {B} (l : list B) i j : firstn i (firstn j l) = firstn (min i j) l.
Proof. apply firstn_firstn. Qed.

Lemma pop_loop_spec n s :
  arr (pop_loop n s) = arr s /\ off (pop_loop n s) = off s /\ len (pop_loop n s) = (len s - n)%nat.
Proof.
  revert s; induction n as [|n IH]; intros s; cbn [pop_loop]; [repeat split; lia|].
  destruct (0 <? len s)%nat eqn:E.
  - destruct (IH (poplast s)) as (H1 & H2 & H3). rewrite H1, H2, H3. cbn [poplast arr off len].
    repeat split; lia.
  - apply Nat.ltb_ge in E. repeat split; lia.
Qed.

Lemma pop_loop_ok m s n :
  wfs (m, s) ->
  wfs (m, pop_loop n s) /\ elems m (pop_loop n s) = firstn (List.length (elems m s) - n) (elems m s).
Proof.
  intros Hwf. assert (Hl := elems_length _ Hwf). cbn [fst snd] in Hl. destruct Hwf as [H1 H2].
  destruct (pop_loop_spec n s) as (P1 & P2 & P3). split.
  - split; rewrite P1; [exact H1|]. rewrite P2, P3. lia.
  - unfold elems. rewrite P1, P2, P3. rewrite firstn_firstn_min. f_equal.
    unfold elems in Hl. lia.
Qed.

Lemma stackPop_ok m s n :
  wfs (m, s) ->
  let '(m', s') := stackPop A m s n in
  wfs (m', s') /\ elems m' s' = firstn (List.length (elems m s) - Z.to_nat n) (elems m s).
Proof.
  intros Hwf. unfold stackPop. destruct (n <=? 0) eqn:E.
  - split; [exact Hwf|]. replace (Z.to_nat n) with 0%nat by lia. rewrite Nat.sub_0_r, firstn_all. reflexivity.
  - destruct (pop_loop_ok m s (Z.to_nat n) Hwf) as [K1 K2].
    destruct (_ && _).
    + assert (R := realloc_ok m (pop_loop (Z.to_nat n) s) K1).
      destruct (realloc A m (pop_loop (Z.to_nat n) s)) as [m' s'] eqn:Er. destruct R as [R1 R2].
      split; [exact R1|]. rewrite R2. exact K2.
    + split; assumption.
Qed.

Lemma run_op_ok st o :
  wfs st ->
  wfs (run_op A zero grow st o) /\
  elems (fst (run_op A zero grow st o)) (snd (run_op A zero grow st o)) = spec_op (elems (fst st) (snd st)) o.
Proof.
  destruct st as [m s]. intros Hwf. destruct o as [x|n]; cbn [run_op spec_op fst snd].
  - assert (K := append1_ok m s x Hwf). destruct (append1 A zero grow m s x) as [m' s']. exact K.
  - assert (K := stackPop_ok m s n Hwf). destruct (stackPop A m s n) as [m' s']. exact K.
Qed.

Lemma history_ok ops st :
  wfs st ->
  wfs (fold_left (run_op A zero grow) ops st) /\
  elems (fst (fold_left (run_op A zero grow) ops st)) (snd (fold_left (run_op A zero grow) ops st))
  = fold_left spec_op ops (elems (fst st) (snd st)).
Proof.
  revert st; induction ops as [|o ops IH]; intros st Hwf; [split; [exact Hwf|reflexivity]|].
  cbn [fold_left]. destruct (run_op_ok st o Hwf) as [K1 K2].
  destruct (IH _ K1) as [I1 I2]. split; [exact I1|]. rewrite I2, K2. reflexivity.
Qed.

Lemma empty_wf : wfs (empty_stack A).
Proof. split; cbn; lia. Qed.

Lemma stack_refines ops :
  let st := fold_left (run_op A zero grow) ops (empty_stack A) in
  elems (fst st) (snd st) = fold_left spec_op ops [].
Proof. apply (history_ok ops (empty_stack A) empty_wf). Qed.

Definition last_n (n : nat) (l : list A) : list A := skipn (List.length l - n) l.

Lemma skipn_firstn_lastn m s k :
  wfs (m, s) -> (k <= len s)%nat ->
  elems m {| arr := arr s; off := off s + (len s - k); len := k |} = last_n k (elems m s).
Proof.
  intros Hwf Hk. assert (Hl := elems_length _ Hwf). cbn [fst snd] in Hl. destruct Hwf as [H1 H2].
  unfold last_n. rewrite Hl. unfold elems. cbn [arr off len].
  rewrite skipn_firstn_comm. rewrite skipn_skipn.
  replace (len s - (len s - k))%nat with k by lia.
  f_equal. f_equal. lia.
Qed.

Lemma peek_ok ops n :
  0 <= n ->
  let st := fold_left (run_op A zero grow) ops (empty_stack A) in
  exists p, peek (snd st) n = Ret p /\
    elems (fst st) p = last_n (Z.to_nat n) (fold_left spec_op ops []).
Proof.
  intros Hn st. assert (Hr := stack_refines ops). fold st in Hr.
  destruct (history_ok ops (empty_stack A) empty_wf) as [Hwf _]. fold st in Hwf.
  destruct st as [m s] eqn:Est. cbn [fst snd] in *.
  assert (Hl := elems_length _ Hwf). cbn [fst snd] in Hl.
  unfold peek. destruct (n <? Z.of_nat (len s)) eqn:E.
  - destruct (n <? 0) eqn:E2; [lia|]. eexists. split; [reflexivity|].
    rewrite skipn_firstn_lastn by (try exact Hwf; lia). rewrite Hr. reflexivity.
  - eexists. split; [reflexivity|]. rewrite Hr. unfold last_n.
    replace (List.length (fold_left spec_op ops []) - Z.to_nat n)%nat with 0%nat; [reflexivity|].
    rewrite <- Hr. lia.
Qed.

End Proofs.

(* ---- unique stack ---- *)
Section UProofs.
Variable A : Type.
Variable zero : A.
Variable grow : nat -> nat.
Variable key : A -> str.

Definition keys (l : list A) : list str := map key l.

(* the newest entry under a key *)
Fixpoint newest (k : str) (l : list A) : option A :=
  match l with
  | [] => None
  | x :: l' => match newest k l' with
               | Some y => Some y
               | None => if str_eqb (key x) k then Some x else None
               end
  end.

Definition uspec_op (l : list A) (o : op A) : list A :=
  match o with
  | OPush x => if existsb (fun y => str_eqb (key y) (key x)) l then l else l ++ [x]
  | OPop n => firstn (List.length l - Z.to_nat n) l
  end.

Lemma find_app {B} (f : B -> bool) l1 l2 :
  find f (l1 ++ l2) = match find f l1 with Some x => Some x | None => find f l2 end.
Proof. induction l1 as [|x l1 IH]; cbn; [reflexivity|]. destruct (f x); [reflexivity|exact IH]. Qed.

Lemma find_rev_newest k l : find (fun x => str_eqb (key x) k) (rev l) = newest k l.
Proof.
  induction l as [|x l IH]; [reflexivity|]. cbn [rev newest]. rewrite find_app, IH.
  destruct (newest k l); [reflexivity|]. cbn [find]. reflexivity.
Qed.

Lemma newest_none k l : newest k l = None <-> existsb (fun y => str_eqb (key y) k) l = false.
Proof.
  induction l as [|x l IH]; cbn; [tauto|].
  destruct (newest k l) as [y|] eqn:E.
  - split; [discriminate|]. intros H. apply orb_false_iff in H as [_ H]. apply IH in H. discriminate.
  - rewrite (proj1 IH eq_refl), orb_false_r. destruct (str_eqb (key x) k); split; intros H; congruence.
Qed.

Lemma urun_ok st o :
  wfs A st ->
  wfs A (urun_op A zero grow key st o) /\
  elems (fst (urun_op A zero grow key st o)) (snd (urun_op A zero grow key st o))
  = uspec_op (elems (fst st) (snd st)) o.
Proof.
  destruct st as [m s]. intros Hwf. destruct o as [x|n]; cbn [urun_op uspec_op fst snd].
  - unfold upush, ulookup. rewrite find_rev_newest.
    destruct (newest (key x) (elems m s)) as [y|] eqn:E; cbn [fst].
    + split; [exact Hwf|]. destruct (existsb _ _) eqn:E2; [reflexivity|].
      apply newest_none in E2. congruence.
    + apply newest_none in E. rewrite E.
      assert (K := append1_ok A zero grow m s x Hwf). destruct (append1 A zero grow m s x) as [m' s']. exact K.
  - assert (K := stackPop_ok A grow m s n Hwf). destruct (stackPop A m s n) as [m' s']. exact K.
Qed.

Lemma uhistory_ok ops st :
  wfs A st ->
  wfs A (fold_left (urun_op A zero grow key) ops st) /\
  elems (fst (fold_left (urun_op A zero grow key) ops st)) (snd (fold_left (urun_op A zero grow key) ops st))
  = fold_left uspec_op ops (elems (fst st) (snd st)).
Proof.
  revert st; induction ops as [|o ops IH]; intros st Hwf; [split; [exact Hwf|reflexivity]|].
  cbn [fold_left]. destruct (urun_ok st o Hwf) as [K1 K2].
  destruct (IH _ K1) as [I1 I2]. split; [exact I1|]. rewrite I2, K2. reflexivity.
Qed.

Lemma NoDup_firstn {B} n (l : list B) : NoDup l -> NoDup (firstn n l).
Proof.
  intros H. rewrite <- (firstn_skipn n l) in H. revert H.
  generalize (skipn n l). intros t. induction (firstn n l) as [|x l' IH]; intros H; [constructor|].
  cbn in H. inversion H as [|? ? H1 H2]; subst. constructor; [|apply IH; exact H2].
  intro K. apply H1. apply in_or_app. left. exact K.
Qed.

Lemma NoDup_snoc {B} (x : B) l : NoDup l -> ~ In x l -> NoDup (l ++ [x]).
Proof.
  induction l as [|y l IH]; intros H Hx; cbn.
  - constructor; [intros []|constructor].
  - inversion H as [|? ? H1 H2]; subst. constructor.
    + intro K. apply in_app_or in K as [K|[K|[]]]; [contradiction|]. subst. apply Hx. left. reflexivity.
    + apply IH; [exact H2|]. intro K. apply Hx. right. exact K.
Qed.

Lemma uspec_nodup ops l : NoDup (keys l) -> NoDup (keys (fold_left uspec_op ops l)).
Proof.
  revert l; induction ops as [|o ops IH]; intros l H; [exact H|].
  cbn [fold_left]. apply IH. destruct o as [x|n]; cbn [uspec_op].
  - destruct (existsb _ _) eqn:E; [exact H|]. unfold keys. rewrite map_app. cbn [map].
    apply NoDup_snoc; [exact H|]. intro K. apply in_map_iff in K as (y & Hk & Hy).
    assert (existsb (fun y => str_eqb (key y) (key x)) l = true).
    { apply existsb_exists. exists y. split; [exact Hy|]. apply str_eqb_eq. exact Hk. }
    congruence.
  - unfold keys. rewrite <- firstn_map. apply NoDup_firstn. exact H.
Qed.

Lemma newest_unique k l x : NoDup (keys l) -> In x l -> key x = k -> newest k l = Some x.
Proof.
  induction l as [|y l IH]; intros Hn Hin Hk; [destruct Hin|].
  cbn [keys map] in Hn. inversion Hn as [|? ? H1 H2]; subst. cbn [newest].
  destruct Hin as [->|Hin].
  - destruct (newest (key x) l) as [z|] eqn:E.
    + exfalso. apply H1.
      assert (Hz : existsb (fun y => str_eqb (key y) (key x)) l = true).
      { destruct (existsb _ l) eqn:E2; [reflexivity|]. apply newest_none in E2. congruence. }
      apply existsb_exists in Hz as (w & Hw & Hwk). apply str_eqb_eq in Hwk. rewrite <- Hwk.
      apply in_map. exact Hw.
    + rewrite str_eqb_refl. reflexivity.
  - rewrite IH; try assumption; reflexivity.
Qed.

Lemma ustack_invariant ops :
  let st := fold_left (urun_op A zero grow key) ops (empty_stack A) in
  let l := fold_left uspec_op ops [] in
  elems (fst st) (snd st) = l /\ NoDup (keys l) /\
  (forall x, In x l -> ulookup A key (fst st) (snd st) (key x) = Some x) /\
  (forall k, ~ In k (keys l) -> ulookup A key (fst st) (snd st) k = None) /\
  (forall x, In (key x) (keys l) ->
     upush A zero grow key (fst st) (snd st) x = ((fst st, snd st), true)) /\
  (forall x, ~ In (key x) (keys l) ->
     let '(st', dup) := upush A zero grow key (fst st) (snd st) x in
     dup = false /\ elems (fst st') (snd st') = l ++ [x]).
Proof.
  cbn zeta. destruct (uhistory_ok ops (empty_stack A) (empty_wf A)) as [Hwf He].
  change (elems (fst (empty_stack A)) (snd (empty_stack A))) with (@nil A) in He.
  set (st := fold_left (urun_op A zero grow key) ops (empty_stack A)) in *.
  set (l := fold_left uspec_op ops []) in *.
  assert (Hn : NoDup (keys l)) by (apply uspec_nodup; constructor).
  assert (Hno : forall k, ~ In k (keys l) -> newest k l = None).
  { intros k Hk. apply newest_none. destruct (existsb _ l) eqn:E; [|reflexivity].
    exfalso. apply Hk. apply existsb_exists in E as (y & Hy & Hyk). apply str_eqb_eq in Hyk.
    rewrite <- Hyk. apply in_map. exact Hy. }
  split; [exact He|]. split; [exact Hn|]. split; [|split; [|split]].
  - intros x Hx. unfold ulookup. rewrite find_rev_newest, He. apply newest_unique; auto.
  - intros k Hk. unfold ulookup. rewrite find_rev_newest, He. apply Hno. exact Hk.
  - intros x Hx. unfold upush, ulookup. rewrite find_rev_newest, He.
    apply in_map_iff in Hx as (y & Hyk & Hy).
    rewrite (newest_unique (key x) l y Hn Hy Hyk). reflexivity.
  - intros x Hx. unfold upush, ulookup. rewrite find_rev_newest, He, Hno by exact Hx.
    destruct st as [m s]. cbn [fst snd] in *.
    assert (K := append1_ok A zero grow m s x Hwf). destruct (append1 A zero grow m s x) as [m' s'].
    destruct K as [_ K]. split; [reflexivity|]. cbn [fst snd]. rewrite K, He. reflexivity.
Qed.

End UProofs.

(* The slice answered by Peek shares storage with the stack: a later pop and
   push changes what it shows. *)
Lemma peek_alias_refuted :
  exists (ops : list (op Z)) p,
    let st := fold_left (run_op Z 0 (fun n => n)) ops (empty_stack Z) in
    peek (snd st) 1 = Ret p /\ elems (fst st) p = [2] /\
    let st' := fold_left (run_op Z 0 (fun n => n)) [OPop 1; OPush 3] st in
    elems (fst st') p = [3].
Proof.
  exists [OPush 1; OPush 2], {| arr := 2; off := 1; len := 1 |}. vm_compute. repeat split; reflexivity.
Qed.
