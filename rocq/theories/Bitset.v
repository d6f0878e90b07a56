(* /repo/bitset.go and the option constants of /repo/interface.go. *)
From Verif Require Import Base.

(* /repo/bitset.go:3-5,11-13  ParseOption.Set, LoadSubsetOption.Set *)
Definition opt_set (p n : Z) : Z := Z.lor p n.

(* /repo/bitset.go:7-9,15-17  IsSet *)
Definition opt_isset (p n : Z) : bool := negb (Z.land p n =? 0).

(* /repo/interface.go:14-18 LoadSubsetOption: 1<<iota+1 is (1<<iota)+1 in Go *)
Definition DetectIDs : Z := 2.
Definition CompleteAttrs : Z := 3.
Definition SkipIDs : Z := 5.
Definition load_options : list Z := [DetectIDs; CompleteAttrs; SkipIDs].

(* /repo/interface.go:23-32 ParseRecover .. ParseNoBlanks = 1 << iota *)
Definition ParseRecover : Z := 1.
Definition ParseNoEnt : Z := 2.
Definition ParseDTDLoad : Z := 4.
Definition ParseDTDAttr : Z := 8.
Definition ParseDTDValid : Z := 16.
Definition ParseNoError : Z := 32.
Definition ParseNoWarning : Z := 64.
Definition ParsePedantic : Z := 128.
Definition ParseNoBlanks : Z := 256.

(* /repo/interface.go:34-43: 1<<iota + 10, iota = 9 .. 17 *)
Definition ParseXInclude : Z := 2 ^ 9 + 10.
Definition ParseNoNet : Z := 2 ^ 10 + 10.
Definition ParseNoDict : Z := 2 ^ 11 + 10.
Definition ParseNsClean : Z := 2 ^ 12 + 10.
Definition ParseNoCDATA : Z := 2 ^ 13 + 10.
Definition ParseNoXIncNode : Z := 2 ^ 14 + 10.
Definition ParseCompact : Z := 2 ^ 15 + 10.
Definition ParseNoBaseFix : Z := 2 ^ 16 + 10.
Definition ParseHuge : Z := 2 ^ 17 + 10.
(* /repo/interface.go:45-46: 1<<iota + 21 with iota = 18, and 1 << 22 *)
Definition ParseIgnoreEnc : Z := 2 ^ 18 + 21.
Definition ParseBigLines : Z := 2 ^ 22.

Definition parse_options : list Z :=
  [ParseRecover; ParseNoEnt; ParseDTDLoad; ParseDTDAttr; ParseDTDValid; ParseNoError;
   ParseNoWarning; ParsePedantic; ParseNoBlanks; ParseXInclude; ParseNoNet; ParseNoDict;
   ParseNsClean; ParseNoCDATA; ParseNoXIncNode; ParseCompact; ParseNoBaseFix; ParseHuge;
   ParseIgnoreEnc; ParseBigLines].

(* the options written as a plain shift *)
Definition plain_options : list Z :=
  [ParseRecover; ParseNoEnt; ParseDTDLoad; ParseDTDAttr; ParseDTDValid; ParseNoError;
   ParseNoWarning; ParsePedantic; ParseNoBlanks; ParseBigLines].
