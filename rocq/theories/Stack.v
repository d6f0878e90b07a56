(* /repo/internal/stack/{simple,stack,unique}.go and /repo/stack.go.
   A Go slice is a window (off, len) on a backing array that other slices may
   share; [append] writes in place while the array has room.  The model keeps
   the arrays explicitly so that reallocation and aliasing are visible. *)
From Verif Require Import Base.

Section Slices.
Variable A : Type.
Variable zero : A.              (* Go's zero value, filling unused capacity *)
Variable grow : nat -> nat.     (* capacity chosen by append's growth policy; any function *)

(* a Go slice of AnyItem (internal/stack/stack.go): array, offset and length;
   mem: the arrays *)
Record slice := { arr : nat; off : nat; len : nat }.
Definition mem := list (list A).

Definition array (m : mem) (a : nat) : list A := nth a m [].
(* cap(s) *)
Definition scap (m : mem) (s : slice) : nat := (List.length (array m (arr s)) - off s)%nat.
(* the elements s[0..len) *)
Definition elems (m : mem) (s : slice) : list A := firstn (len s) (skipn (off s) (array m (arr s))).

(* assigning to an element of an array *)
Fixpoint upd {B} (l : list B) (i : nat) (x : B) : list B :=
  match l, i with
  | [], _ => []
  | _ :: t, O => x :: t
  | y :: t, S i' => y :: upd t i' x
  end.

(* append(s, x): in place if there is capacity, else into a new array *)
Definition append1 (m : mem) (s : slice) (x : A) : mem * slice :=
  if (len s <? scap m s)%nat
  then (upd m (arr s) (upd (array m (arr s)) (off s + len s) x),
        {| arr := arr s; off := off s; len := S (len s) |})
  else let es := elems m s ++ [x] in
       (m ++ [es ++ repeat zero (grow (len s))],
        {| arr := List.length m; off := 0; len := S (len s) |}).

(* append(T(nil), s...): always a fresh array holding a copy (nil when empty;
   modelled as an empty array) *)
Definition realloc (m : mem) (s : slice) : mem * slice :=
  (m ++ [elems m s], {| arr := List.length m; off := 0; len := len s |}).

(* /repo/internal/stack/simple.go:22-27, unique.go:33-38 PopLast *)
Definition poplast (s : slice) : slice :=
  {| arr := arr s; off := off s; len := (len s - 1)%nat |}.

(* /repo/internal/stack/stack.go:17-33 stackPop: the loop pops min(n, len)
   elements, then the storage may be reallocated. *)
Fixpoint pop_loop (n : nat) (s : slice) : slice :=
  match n with
  | O => s
  | S n' => if (0 <? len s)%nat then pop_loop n' (poplast s) else s
  end.

Definition stackPop (m : mem) (s : slice) (n : Z) : mem * slice :=
  if n <=? 0 then (m, s)
  else let s' := pop_loop (Z.to_nat n) s in
       if (20 <? scap m s')%nat && (len s' * 2 <? scap m s')%nat then realloc m s' else (m, s').

(* /repo/internal/stack/simple.go:29-34, unique.go:57-62 Peek: a slice that
   shares the stack's array; n < 0 is an out-of-range slice expression *)
Definition peek (s : slice) (n : Z) : outcome unit slice :=
  if n <? Z.of_nat (len s)
  then (if n <? 0 then Pan
        else Ret {| arr := arr s; off := (off s + (len s - Z.to_nat n))%nat; len := Z.to_nat n |})
  else Ret s.

(* one call of Push or Pop on a stack *)
Inductive op := OPush (x : A) | OPop (n : Z).

(* /repo/internal/stack/simple.go:6-8 Push, :10-16 Pop *)
Definition run_op (st : mem * slice) (o : op) : mem * slice :=
  let '(m, s) := st in
  match o with
  | OPush x => append1 m s x
  | OPop n => stackPop m s n
  end.

(* the empty stack: a nil slice *)
Definition empty_stack : mem * slice := ([[]], {| arr := 0; off := 0; len := 0 |}).

End Slices.

Arguments elems {A} m s.
Arguments OPush {A} x.
Arguments OPop {A} n.

(* Unique stack: keyed items.  /repo/internal/stack/unique.go *)
Section Unique.
Variable A : Type.
Variable zero : A.
Variable grow : nat -> nat.
Variable key : A -> str.

(* /repo/internal/stack/unique.go:48-55 Lookup, newest first; None is NilItem *)
Definition ulookup (m : mem A) (s : slice) (k : str) : option A :=
  find (fun x => str_eqb (key x) k) (rev (elems m s)).

(* /repo/internal/stack/unique.go:13-19 Push; true = ErrDuplicateItem *)
Definition upush (m : mem A) (s : slice) (x : A) : (mem A * slice) * bool :=
  match ulookup m s (key x) with
  | Some _ => ((m, s), true)
  | None => (append1 A zero grow m s x, false)
  end.

(* /repo/internal/stack/unique.go:13-19 Push with its error dropped, :21-27
   Pop *)
Definition urun_op (st : mem A * slice) (o : op A) : mem A * slice :=
  let '(m, s) := st in
  match o with
  | OPush x => fst (upush m s x)
  | OPop n => stackPop A m s n
  end.
End Unique.

(* /repo/stack.go:13-50 nsStack (and the identical
   /repo/internal/stack/nsstack): items are (prefix, href), keyed by prefix. *)
Definition nsitem := (str * str)%type.
Definition ns_push (grow : nat -> nat) (st : mem nsitem * slice) (prefix uri : str) :=
  fst (upush nsitem ([], []) grow fst (fst st) (snd st) (prefix, uri)).
Definition ns_lookup (st : mem nsitem * slice) (prefix : str) : str :=
  match ulookup nsitem fst (fst st) (snd st) prefix with
  | Some it => snd it
  | None => []
  end.
