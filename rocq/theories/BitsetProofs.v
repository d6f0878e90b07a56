From Verif Require Import Base Bitset.

Lemma land_lor_distr p a b : Z.land (Z.lor p a) b = Z.lor (Z.land p b) (Z.land a b).
Proof. apply Z.land_lor_distr_l. Qed.

Lemma isset_set_disjoint p a b :
  Z.land a b = 0 -> opt_isset (opt_set p a) b = opt_isset p b.
Proof.
  intros H. unfold opt_isset, opt_set. rewrite land_lor_distr, H, Z.lor_0_r. reflexivity.
Qed.

Lemma isset_set_overlap p a b :
  Z.land a b <> 0 -> opt_isset (opt_set p a) b = true.
Proof.
  intros H. unfold opt_isset, opt_set. rewrite land_lor_distr.
  destruct (Z.eqb_spec (Z.lor (Z.land p b) (Z.land a b)) 0) as [E|E]; [|reflexivity].
  apply Z.lor_eq_0_iff in E. tauto.
Qed.

Lemma plain_pairs :
  forallb (fun a => forallb (fun b => if a =? b then negb (Z.land a b =? 0) else Z.land a b =? 0) plain_options) plain_options = true.
Proof. vm_compute. reflexivity. Qed.

(* For the options written as plain shifts: after Set(a), IsSet(b) is what it
   was before when b is another option, and true when b is a; for any previous
   value of the bit set. *)
Lemma plain_independent p a b :
  In a plain_options -> In b plain_options ->
  opt_isset (opt_set p a) b = if a =? b then true else opt_isset p b.
Proof.
  intros Ha Hb. assert (H := plain_pairs). rewrite forallb_forall in H. specialize (H a Ha).
  rewrite forallb_forall in H. specialize (H b Hb).
  destruct (a =? b) eqn:E.
  - apply isset_set_overlap. destruct (Z.land a b =? 0) eqn:K; [discriminate|]. apply Z.eqb_neq in K. exact K.
  - apply isset_set_disjoint. apply Z.eqb_eq in H. exact H.
Qed.

Lemma options_overlap_refuted :
  exists a b, In a parse_options /\ In b parse_options /\ a <> b /\
    opt_isset 0 b = false /\ opt_isset (opt_set 0 a) b = true.
Proof.
  exists ParseNoNet, ParseNoEnt. repeat split; try reflexivity; try (cbn; tauto). discriminate.
Qed.

Lemma load_overlap_refuted :
  exists a b, In a load_options /\ In b load_options /\ a <> b /\
    opt_isset 0 b = false /\ opt_isset (opt_set 0 a) b = true.
Proof.
  exists DetectIDs, CompleteAttrs. repeat split; try reflexivity; try (cbn; tauto). discriminate.
Qed.
