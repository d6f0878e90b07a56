From Verif Require Import Base Lint.

(* What a user expects, file by file, in order: the files before the first
   failing one are written; the exit status is 0 when none fails. *)
Fixpoint good_prefix (fs : list file) : list file :=
  match fs with
  | f :: r => if opens f && parses f then f :: good_prefix r else []
  | [] => []
  end.
Inductive failure := NoFailure | OpenFailure | ParseFailure.
Fixpoint first_failure (fs : list file) : failure :=
  match fs with
  | f :: r => if opens f then (if parses f then first_failure r else ParseFailure) else OpenFailure
  | [] => NoFailure
  end.

(* every run from a file list is finite *)
Definition rmeas (r : reader) : nat :=
  match r with
  | RLoop fs => 1 + 4 * List.length fs
  | RSend _ fs => 4 + 4 * List.length fs
  | RErr => 0
  | RClosed => 0
  end.
Definition mmeas (m : main) : nat :=
  match m with MRecv => 2 | MProc _ => 3 | MSelect => 1 | MExit _ => 0 end.
Definition meas (s : state) : nat := rmeas (rd s) + mmeas (mn s).

Lemma step_meas a b : step a b -> (meas b < meas a)%nat.
Proof. destruct 1; unfold meas; cbn [rd mn rmeas mmeas List.length]; lia. Qed.

Lemma steps_bound n a b : steps n a b -> (n + meas b <= meas a)%nat.
Proof. induction 1 as [s|n a b c H H1 IH]; [lia|]. apply step_meas in H. lia. Qed.

Lemma lint_runs_finite fs n s : steps n (init fs) s -> (n <= 4 * List.length fs + 3)%nat.
Proof. intros H. apply steps_bound in H. unfold meas, init in H. cbn in H. lia. Qed.

(* invariant *)
Definition inv (fs : list file) (s : state) : Prop :=
  exists done pending,
    Forall (fun f => opens f = true /\ parses f = true) done /\ fs = done ++ pending /\
    match mn s with
    | MRecv =>
      out s = done /\
      match rd s with
      | RLoop rest => pending = rest
      | RSend f rest => pending = f :: rest /\ opens f = true
      | RErr => exists f rest, pending = f :: rest /\ opens f = false
      | RClosed => pending = []
      end
    | MProc f =>
      out s = done /\ opens f = true /\ exists rest0, pending = f :: rest0 /\
      match rd s with
      | RLoop rest => rest0 = rest
      | RSend g rest => rest0 = g :: rest /\ opens g = true
      | RErr => exists g rest, rest0 = g :: rest /\ opens g = false
      | RClosed => rest0 = []
      end
    | MSelect => out s = done /\ pending = [] /\ rd s = RClosed
    | MExit c =>
      out s = done /\
      ((c = 0 /\ pending = []) \/ (c = 1 /\ exists f rest, pending = f :: rest /\ opens f = true /\ parses f = false))
    end.

Lemma inv_init fs : inv fs (init fs).
Proof. exists [], fs. split; [constructor|]. split; [reflexivity|]. cbn. split; reflexivity. Qed.

Lemma inv_step fs a b : inv fs a -> step a b -> inv fs b.
Proof.
  intros (done & pending & Hd & Hfs & H) Hs.
  destruct Hs as [f r m o Ho Hm|f r m o Ho Hm|m o Hm|f r o|o|f r o Hp|f r o Hp|o|r o Hr]; cbn [rd mn out] in *.
  - exists done, pending. split; [exact Hd|]. split; [exact Hfs|]. cbn [rd mn out].
    destruct m as [|g| |c]; cbn in *.
    + destruct H as [H1 H2]. split; [exact H1|]. split; [congruence|exact Ho].
    + destruct H as (H1 & H2 & r0 & H3 & H4). split; [exact H1|]. split; [exact H2|]. exists r0. subst. auto.
    + destruct H as (_ & _ & H). discriminate.
    + exfalso. apply (Hm c). reflexivity.
  - exists done, pending. split; [exact Hd|]. split; [exact Hfs|]. cbn [rd mn out].
    destruct m as [|g| |c]; cbn in *.
    + destruct H as [H1 H2]. split; [exact H1|]. exists f, r. auto.
    + destruct H as (H1 & H2 & r0 & H3 & H4). split; [exact H1|]. split; [exact H2|]. exists r0. subst. split; [reflexivity|]. eauto.
    + destruct H as (_ & _ & H). discriminate.
    + exfalso. apply (Hm c). reflexivity.
  - exists done, pending. split; [exact Hd|]. split; [exact Hfs|]. cbn [rd mn out].
    destruct m as [|g| |c]; cbn in *.
    + exact H.
    + exact H.
    + destruct H as (_ & _ & H). discriminate.
    + exfalso. apply (Hm c). reflexivity.
  - destruct H as (H1 & H2 & H3). exists done, pending. split; [exact Hd|]. split; [exact Hfs|]. cbn.
    split; [exact H1|]. split; [exact H3|]. exists r. auto.
  - destruct H as (H1 & H2). exists done, pending. split; [exact Hd|]. split; [exact Hfs|]. cbn. auto.
  - destruct H as (H1 & H2 & r0 & H3 & H4). exists (done ++ [f]), r0.
    split. { apply Forall_app. split; [exact Hd|]. constructor; [auto|constructor]. }
    split. { rewrite Hfs, H3, <- app_assoc. reflexivity. }
    cbn. split; [congruence|]. destruct r as [rest|g rest| |]; auto.
  - destruct H as (H1 & H2 & r0 & H3 & H4). exists done, pending. split; [exact Hd|]. split; [exact Hfs|]. cbn.
    split; [exact H1|]. right. split; [reflexivity|]. eauto.
  - destruct H as (_ & _ & H). discriminate.
  - destruct H as (H1 & H2 & H3). exists done, pending. split; [exact Hd|]. split; [exact Hfs|]. cbn. auto.
Qed.

Lemma inv_steps fs n a b : inv fs a -> steps n a b -> inv fs b.
Proof. intros H Hs. revert H. induction Hs as [s|n a b c H1 H2 IH]; intros H; [exact H|]. apply IH. eapply inv_step; eassumption. Qed.

Lemma good_prefix_app done rest :
  Forall (fun f => opens f = true /\ parses f = true) done ->
  good_prefix (done ++ rest) = done ++ good_prefix rest /\ first_failure (done ++ rest) = first_failure rest.
Proof.
  induction 1 as [|f l [H1 H2] Hl [IH1 IH2]]; [split; reflexivity|].
  cbn. rewrite H1, H2. cbn. rewrite IH1, IH2. split; reflexivity.
Qed.

(* Where every complete run ends. *)
Lemma lint_final fs n s :
  steps n (init fs) s -> stuck s ->
  out s = good_prefix fs /\
  mn s = match first_failure fs with
         | NoFailure => MExit 0
         | ParseFailure => MExit 1
         | OpenFailure => MRecv
         end /\
  (first_failure fs = OpenFailure -> rd s = RErr).
Proof.
  intros Hs Hst. assert (Hi := inv_steps fs n _ _ (inv_init fs) Hs).
  destruct Hi as (done & pending & Hd & Hfs & H).
  destruct (good_prefix_app done pending Hd) as [G1 G2]. rewrite Hfs, G1, G2.
  destruct s as [r m o]. cbn [rd mn out] in *.
  destruct m as [|f| |c].
  - destruct H as [H1 H2]. destruct r as [rest|f rest| |].
    + exfalso. destruct rest as [|f rest].
      * eapply Hst. apply s_close. congruence.
      * destruct (opens f) eqn:E; eapply Hst; [apply s_open_ok|apply s_open_err]; try exact E; congruence.
    + exfalso. eapply Hst. apply s_recv.
    + destruct H2 as (f & rest & -> & Ho). cbn. rewrite Ho. cbn. rewrite app_nil_r. auto.
    + exfalso. eapply Hst. apply s_range_end.
  - exfalso. destruct (parses f) eqn:E; eapply Hst; [apply s_proc_ok|apply s_proc_err]; exact E.
  - exfalso. destruct H as (_ & _ & ->). eapply Hst. apply s_select_default. discriminate.
  - destruct H as [H1 [[-> ->]|[-> (f & rest & -> & Ho & Hp)]]].
    + cbn. rewrite app_nil_r. split; [exact H1|]. split; [reflexivity|discriminate].
    + cbn. rewrite Ho, Hp. cbn. rewrite app_nil_r. split; [exact H1|]. split; [reflexivity|discriminate].
Qed.

(* Stuckness is decidable here, so every run extends to a complete one. *)
Lemma step_or_stuck s : (exists s', step s s') \/ stuck s.
Proof.
  destruct s as [r m o].
  assert (Ex : (exists c, m = MExit c) \/ (forall c, m <> MExit c)).
  { destruct m; [right; congruence|right; congruence|right; congruence|left; eauto]. }
  destruct Ex as [[c ->]|Hm].
  { right. intros s' H. inversion H; subst; match goal with K : forall c, _ <> _ |- _ => eapply K; reflexivity end. }
  destruct m as [|f| |c].
  - destruct r as [[|f rest]|f rest| |].
    + left. eexists. apply s_close. exact Hm.
    + left. destruct (opens f) eqn:E; eexists; [apply s_open_ok|apply s_open_err]; assumption.
    + left. eexists. apply s_recv.
    + right. intros s' H. inversion H.
    + left. eexists. apply s_range_end.
  - left. destruct (parses f) eqn:E; eexists; [apply s_proc_ok|apply s_proc_err]; exact E.
  - left. destruct r as [l|f l| |]; eexists; try (apply s_select_default; discriminate). apply s_select_err.
  - exfalso. apply (Hm c). reflexivity.
Qed.

Lemma run_completes s : exists n s', steps n s s' /\ stuck s'.
Proof.
  remember (meas s) as k eqn:Hk. revert s Hk. induction k as [k IH] using lt_wf_ind. intros s ->.
  destruct (step_or_stuck s) as [[s1 H1]|H].
  - destruct (IH (meas s1) (step_meas _ _ H1) s1 eq_refl) as (n & s' & H2 & H3).
    exists (S n), s'. split; [econstructor; eassumption|exact H3].
  - exists 0%nat, s. split; [constructor|exact H].
Qed.

Lemma lint_deadlock_refuted :
  exists fs n s, steps n (init fs) s /\ stuck s /\ (forall c, mn s <> MExit c).
Proof.
  exists [{| opens := false; parses := true |}].
  destruct (run_completes (init [{| opens := false; parses := true |}])) as (n & s & H1 & H2).
  exists n, s. split; [exact H1|]. split; [exact H2|].
  destruct (lint_final _ _ _ H1 H2) as (_ & H & _). cbn in H. rewrite H. congruence.
Qed.
