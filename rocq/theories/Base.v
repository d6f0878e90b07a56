(* Base vocabulary of the model: bytes, runes, strings, outcomes.
   This file models no function of /repo by itself; it fixes the
   representation used by all the others. *)
From Coq Require Export Ascii String.
From Coq Require Export ZArith Lia Bool List.
From Coq Require Export ZifyBool ZifyNat.
Export ListNotations.
Open Scope Z_scope.
Open Scope list_scope.

Global Arguments Z.add : simpl never.
Global Arguments Z.sub : simpl never.
Global Arguments Z.mul : simpl never.
Global Arguments Z.div : simpl never.
Global Arguments Z.modulo : simpl never.
Global Arguments Z.leb : simpl never.
Global Arguments Z.ltb : simpl never.
Global Arguments Z.eqb : simpl never.
Global Arguments Z.of_nat : simpl never.
Global Arguments Z.to_nat : simpl never.

(* A Go byte or rune is an integer; a Go string, []byte or decoded input is a
   list of them. *)
Definition str := list Z.

Definition is_byte (b : Z) : Prop := 0 <= b < 256.
Definition bytes_ok (s : str) : Prop := Forall is_byte s.

(* Text literals of the Go source, as bytes. *)
Definition s_ (x : string) : str :=
  map (fun a => Z.of_N (N_of_ascii a)) (list_ascii_of_string x).

(* Go's == on strings *)
Fixpoint str_eqb (a b : str) : bool :=
  match a, b with
  | [], [] => true
  | x :: a', y :: b' => (x =? y) && str_eqb a' b'
  | _, _ => false
  end.

Lemma str_eqb_eq a b : str_eqb a b = true <-> a = b.
Proof.
  revert b; induction a as [|x a IH]; intros [|y b]; cbn; split; intro H; try congruence; try reflexivity.
  - apply andb_true_iff in H as [H1 H2]. apply Z.eqb_eq in H1. apply IH in H2. congruence.
  - injection H as -> ->. rewrite Z.eqb_refl. cbn. apply IH. reflexivity.
Qed.

Lemma str_eqb_refl a : str_eqb a a = true.
Proof. apply str_eqb_eq; reflexivity. Qed.

Lemma str_eqb_neq a b : str_eqb a b = false <-> a <> b.
Proof.
  split; intro H.
  - intros ->. rewrite str_eqb_refl in H. discriminate.
  - destruct (str_eqb a b) eqn:E; [|reflexivity]. apply str_eqb_eq in E. contradiction.
Qed.

Lemma str_eqb_spec a b : reflect (a = b) (str_eqb a b).
Proof. destruct (str_eqb a b) eqn:E; constructor; [apply str_eqb_eq|apply str_eqb_neq]; exact E. Qed.

(* strings.HasPrefix / bytes.HasPrefix *)
Fixpoint has_prefix (p s : str) : bool :=
  match p, s with
  | [], _ => true
  | x :: p', y :: s' => (x =? y) && has_prefix p' s'
  | _ :: _, [] => false
  end.

Lemma has_prefix_app p s : has_prefix p (p ++ s) = true.
Proof. induction p; cbn; [reflexivity|]. rewrite Z.eqb_refl. assumption. Qed.

Lemma has_prefix_true p s : has_prefix p s = true <-> exists t, s = p ++ t.
Proof.
  revert s; induction p as [|x p IH]; intros s; cbn.
  - split; [exists s; reflexivity|reflexivity].
  - destruct s as [|y s]; [split; [discriminate|intros [t H]; discriminate]|].
    rewrite andb_true_iff, Z.eqb_eq, IH. split.
    + intros [-> [t ->]]. exists t. reflexivity.
    + intros [t H]. injection H as -> ->. split; [reflexivity|exists t; reflexivity].
Qed.

(* What a Go function call ends in: a value, a returned error, a panic
   (explicit, nil dereference, index out of range), or the model's fuel was
   not enough.  A Go call that never returns is one whose model answers [Oof]
   for every amount of fuel. *)
Inductive outcome (E A : Type) : Type :=
| Ret (a : A)
| Fail (e : E)
| Pan
| Oof.
Arguments Ret {E A} a.
Arguments Fail {E A} e.
Arguments Pan {E A}.
Arguments Oof {E A}.

Lemma skipn_skipn {A} (i j : nat) (l : list A) : skipn i (skipn j l) = skipn (i + j) l.
Proof.
  revert l; induction j as [|j IH]; intros l; [rewrite Nat.add_0_r; reflexivity|].
  rewrite Nat.add_succ_r. destruct l as [|x l]; [rewrite !skipn_nil; reflexivity|].
  cbn [skipn]. apply IH.
Qed.
