(* C64, C65: writers that fail.  [XML W wr h n d w]: the method XML of the
   document d with a writer in state w whose method Write is wr: from a state
   and the bytes of a call to the next state, the number of bytes taken and
   whether an error is returned.  The result is that of XML (Ret: nil) and the
   bytes taken by the writer (s_out), with whether it returned an error
   (s_failed).  nodeXML is the method of a node.  [dumpDoc], [dumpNode]: the
   text of a document or node. *)
From Verif Require Import Base Utf8 Escape Scan Heap TreeShape Forest History TreeEx Dump DumpWrite DumpWriteProofs DumpWriteTree.
Local Open Scope positive_scope.

(* ---- C64: a failing write is reported ---- *)
(* It never is: what XML returns does not depend on the writer. *)
Theorem C64_ignored : forall h n d W1 (wr1 : W1 -> str -> W1 * (nat * bool)) w1 W2 (wr2 : W2 -> str -> W2 * (nat * bool)) w2,
  fst (XML W1 wr1 h n d w1) = fst (XML W2 wr2 h n d w2).
Proof. exact same_result. Qed.
Theorem C64_node_ignored : forall h n p W1 (wr1 : W1 -> str -> W1 * (nat * bool)) w1 W2 (wr2 : W2 -> str -> W2 * (nat * bool)) w2,
  fst (nodeXML W1 wr1 h n p w1) = fst (nodeXML W2 wr2 h n p w2).
Proof. exact same_node_result. Qed.
(* a writer that takes nothing and always fails *)
Definition deaf (w : unit) (b : str) : unit * (nat * bool) := (w, (O, true)).
Theorem C64_reported_refuted : exists h d, reach h /\ honest deaf /\
  fst (XML unit deaf h 30 d tt) = Ret tt /\ s_failed (snd (XML unit deaf h 30 d tt)) = true /\ s_out (snd (XML unit deaf h 30 d tt)) = [].
Proof.
  exists hx, 1. split; [apply hx_reach|]. split.
  - intros w b w' n e [= <- <- <-]. split; [lia|discriminate].
  - vm_compute. auto.
Qed.
(* What nil does mean: if no call of Write returned an error, all of the text
   was taken.  [honest]: the contract of io.Writer.  Missing: that nil implies
   it, refuted above. *)
Theorem C64_whole_partial : forall h n d W (wr : W -> str -> W * (nat * bool)) w text,
  plain_values h -> honest wr -> dumpDoc h n d = Ret text -> s_failed (snd (XML W wr h n d w)) = false ->
  fst (XML W wr h n d w) = Ret tt /\ s_out (snd (XML W wr h n d w)) = text.
Proof. exact whole. Qed.
Theorem C64_node_whole_partial : forall h n p W (wr : W -> str -> W * (nat * bool)) w text,
  plain_values h -> honest wr -> dumpNode h n p = Ret text -> s_failed (snd (nodeXML W wr h n p w)) = false ->
  fst (nodeXML W wr h n p w) = Ret tt /\ s_out (snd (nodeXML W wr h n p w)) = text.
Proof. exact node_whole. Qed.
(* in particular into memory *)
Theorem C64_string : forall h n d text, plain_values h -> dumpDoc h n d = Ret text -> XMLString h n d = Ret text.
Proof. exact string_agrees. Qed.
(* [plain_values] (no declarations under attributes) holds of every tree made
   by calls of the interface *)
Theorem C64_plain : forall h, reach h -> plain_values h.
Proof. exact reach_plain. Qed.

(* a disk with room for some bytes *)
Definition disk (w : nat) (b : str) : nat * (nat * bool) :=
  if (List.length b <=? w)%nat then ((w - List.length b)%nat, (List.length b, false)) else (O, (w, true)).
Lemma disk_honest : honest disk.
Proof.
  intros w b w' n e. unfold disk. destruct (List.length b <=? w)%nat eqn:E; intros [= <- <- <-].
  - split; [lia|reflexivity].
  - apply Nat.leb_gt in E. split; [lia|discriminate].
Qed.
Lemma disk_broken : stays_broken disk.
Proof.
  exists (fun w => w = O). split.
  - intros w b w' n. unfold disk. destruct (List.length b <=? w)%nat; congruence.
  - intros w b w' n e ->. unfold disk. destruct (List.length b <=? 0)%nat eqn:E; intros [= <- <- <-]; [|split; reflexivity].
    apply Nat.leb_le in E. split; [lia|reflexivity].
Qed.
Definition hx_text : str := s_ "<?xml version=""1.0""?>" ++ [10%Z] ++ s_ "<r>a<b id=""v"" k=""w"">xy</b><!--c--></r>" ++ [10%Z].
Example C64_ex : plain_values hx /\ honest disk /\ dumpDoc hx 30 1 = Ret hx_text /\
  s_failed (snd (XML nat disk hx 30 1 61%nat)) = false /\ s_out (snd (XML nat disk hx 30 1 61%nat)) = hx_text /\
  fst (XML nat disk hx 30 1 25%nat) = Ret tt /\ s_failed (snd (XML nat disk hx 30 1 25%nat)) = true.
Proof. split; [apply reach_plain, hx_reach|]. split; [apply disk_honest|]. vm_compute. auto. Qed.

(* ---- C65: what reaches the writer is the beginning of the document ---- *)
(* Proved for writers that take nothing once they have failed (a full disk, a
   closed connection). *)
Theorem C65_prefix_partial : forall h n d W (wr : W -> str -> W * (nat * bool)) w text,
  plain_values h -> honest wr -> stays_broken wr -> dumpDoc h n d = Ret text ->
  exists rest, s_out (snd (XML W wr h n d w)) ++ rest = text.
Proof. exact prefix. Qed.
Theorem C65_node_prefix_partial : forall h n p W (wr : W -> str -> W * (nat * bool)) w text,
  plain_values h -> honest wr -> stays_broken wr -> dumpNode h n p = Ret text ->
  exists rest, s_out (snd (nodeXML W wr h n p w)) ++ rest = text.
Proof. exact node_prefix. Qed.
(* A writer that fails once, in its call number w, and then works again: the
   text goes on behind the hole. *)
Definition hiccup (w : nat) (b : str) : nat * (nat * bool) :=
  match w with
  | O => (O, (List.length b, false))
  | 1%nat => (O, (O, true))
  | S w' => (w', (List.length b, false))
  end.
Theorem C65_prefix_refuted : exists h d text, reach h /\ honest hiccup /\ dumpDoc h 30 d = Ret text /\
  fst (XML nat hiccup h 30 d 5%nat) = Ret tt /\
  s_out (snd (XML nat hiccup h 30 d 5%nat)) = s_ "<?xml version=""1.0""?>" ++ [10%Z] ++ s_ "<>a<b id=""v"" k=""w"">xy</b><!--c--></r>" ++ [10%Z] /\
  ~ exists rest, s_out (snd (XML nat hiccup h 30 d 5%nat)) ++ rest = text.
Proof.
  exists hx, 1, hx_text. split; [apply hx_reach|]. split.
  - intros w b w' n e. destruct w as [|[|w]]; intros [= <- <- <-]; (split; [lia|first [reflexivity|discriminate]]).
  - refine (conj _ (conj _ (conj _ _))); try (vm_compute; reflexivity).
    intros (rest & E). apply (f_equal (firstn 24)) in E. vm_compute in E. discriminate.
Qed.
Example C65_ex : plain_values hx /\ honest disk /\ stays_broken disk /\ dumpDoc hx 30 1 = Ret hx_text /\
  s_out (snd (XML nat disk hx 30 1 25%nat)) = s_ "<?xml version=""1.0""?>" ++ [10%Z] ++ s_ "<r>".
Proof. split; [apply reach_plain, hx_reach|]. split; [apply disk_honest|]. split; [apply disk_broken|]. vm_compute. auto. Qed.

(* ---- assumptions ---- *)
Print Assumptions C64_ignored.
Print Assumptions C64_node_ignored.
Print Assumptions C64_reported_refuted.
Print Assumptions C64_whole_partial.
Print Assumptions C64_node_whole_partial.
Print Assumptions C64_string.
Print Assumptions C64_plain.
Print Assumptions C65_prefix_partial.
Print Assumptions C65_node_prefix_partial.
Print Assumptions C65_prefix_refuted.
