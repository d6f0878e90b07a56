(* /repo/cmd/helium-lint/helium-lint.go:49-97: the reader goroutine, the main
   loop, and the two unbuffered channels between them, as a transition system.
   A file is abstracted by two facts: whether os.Open succeeds on it and
   whether reading and parsing it succeeds (a parse that never returns or
   panics is outside this file; see the parser model).  Flag parsing and the
   stdin case (one input that is always open) are not modelled. *)
From Verif Require Import Base.

(* a file named on the command line: whether os.Open and the parser accept it *)
Record file := { opens : bool; parses : bool }.

(* the goroutine of lines 53-63 *)
Inductive reader :=
| RLoop (rest : list file)            (* about to open the next file *)
| RSend (f : file) (rest : list file) (* blocked on inputCh <- fh, line 61 *)
| RErr                                (* blocked on errCh <- err, line 58 *)
| RClosed.                            (* returned: deferred close(inputCh) ran *)

(* _main from line 75 *)
Inductive main :=
| MRecv                               (* for in := range inputCh *)
| MProc (f : file)                    (* ReadAll, Parse, DumpDoc *)
| MSelect                             (* select with default, line 90 *)
| MExit (code : Z).                   (* os.Exit *)

(* the two goroutines and the documents dumped so far *)
Record state := { rd : reader; mn : main; out : list file (* dumped so far *) }.

(* one step of either goroutine; the channel is unbuffered (line 50), so
   sending and receiving happen together *)
Inductive step : state -> state -> Prop :=
| s_open_ok f fs m o : opens f = true -> (forall c, m <> MExit c) ->
    step {| rd := RLoop (f :: fs); mn := m; out := o |} {| rd := RSend f fs; mn := m; out := o |}
| s_open_err f fs m o : opens f = false -> (forall c, m <> MExit c) ->
    step {| rd := RLoop (f :: fs); mn := m; out := o |} {| rd := RErr; mn := m; out := o |}
| s_close m o : (forall c, m <> MExit c) ->
    step {| rd := RLoop []; mn := m; out := o |} {| rd := RClosed; mn := m; out := o |}
| s_recv f fs o :   (* rendezvous on inputCh *)
    step {| rd := RSend f fs; mn := MRecv; out := o |} {| rd := RLoop fs; mn := MProc f; out := o |}
| s_range_end o :
    step {| rd := RClosed; mn := MRecv; out := o |} {| rd := RClosed; mn := MSelect; out := o |}
| s_proc_ok f r o : parses f = true ->
    step {| rd := r; mn := MProc f; out := o |} {| rd := r; mn := MRecv; out := o ++ [f] |}
| s_proc_err f r o : parses f = false ->
    step {| rd := r; mn := MProc f; out := o |} {| rd := r; mn := MExit 1; out := o |}
| s_select_err o :  (* case err := <-errCh *)
    step {| rd := RErr; mn := MSelect; out := o |} {| rd := RErr; mn := MExit 1; out := o |}
| s_select_default r o : r <> RErr ->
    step {| rd := r; mn := MSelect; out := o |} {| rd := r; mn := MExit 0; out := o |}.

(* line 49 to 75: the goroutine started, main about to receive *)
Definition init (fs : list file) : state := {| rd := RLoop fs; mn := MRecv; out := [] |}.

(* n steps *)
Inductive steps : nat -> state -> state -> Prop :=
| st_refl s : steps 0 s s
| st_step n a b c : step a b -> steps n b c -> steps (S n) a c.

(* no step is possible *)
Definition stuck (s : state) : Prop := forall s', ~ step s s'.
