(* Counterexamples: concrete inputs on which the parser hangs, panics, accepts
   what it must refuse or refuses what it must accept.  Evaluated by the
   kernel with the environment and handlers of Sample.v, for both values the
   cursor may answer with at the end of the input. *)
From Verif Require Import Base Utf8 Encoding Scan ScanProofs Parser Sample.
Local Open Scope Z_scope.

(* ---- hanging: out of fuel for every amount of fuel ---- *)
Definition hangs (eof : Z) (x : str) : Prop := forall n pct, fst (Parse (env0 eof pct) _ plainH n tt x) = Oof.

Lemma hang_colon : forall eof, eof_ok eof -> hangs eof (s_ "<a:1/>").
Proof.
  intros eof [->| ->] n pct; do 3 (destruct n as [|n]; [destruct pct; vm_compute; reflexivity|]); destruct pct; vm_compute; reflexivity.
Qed.
Lemma hang_cdata : hangs RuneError (s_ "<r><![CDATA[ab").
Proof.
  intros n pct; do 3 (destruct n as [|n]; [destruct pct; vm_compute; reflexivity|]); destruct pct; vm_compute; reflexivity.
Qed.

(* white space and junk in the internal subset *)
Lemma bind_oof : forall S A B (m : M S A) (f : A -> M S B) s a s1, m s = (Ret a, s1) -> fst (f a s1) = Oof -> fst (bind S m f s) = Oof.
Proof. intros S A B m f s a s1 Hm Hf. unfold bind. rewrite Hm. exact Hf. Qed.
Lemma bind_oof1 : forall S A B (m : M S A) (f : A -> M S B) s, fst (m s) = Oof -> fst (bind S m f s) = Oof.
Proof. intros S A B m f s Hm. unfold bind. destruct (m s) as [[]]; cbn in *; congruence. Qed.
Lemma wrap_oof : forall S A (m : M S A) s, fst (m s) = Oof -> fst (wrap S m s) = Oof.
Proof. intros S A m s Hm. unfold wrap. destruct (m s) as [[]]; cbn in *; congruence. Qed.

Ltac step := match goal with |- fst (bind ?S ?m ?f ?s) = Oof =>
  let r := eval vm_compute in (m s) in
  match r with (Ret ?a, ?s1) => apply (bind_oof S _ _ m f s a s1); [vm_compute; reflexivity|cbv beta iota] end end.

Lemma pe_other : forall E S (H : handler S) s c w, inp s = c :: w -> c <> 37 -> parsePEReference E S H s = (Ret tt, s).
Proof.
  intros E S H s c w Hs Hc. unfold parsePEReference, bind at 1, mpeek, lift at 1, ppeek. rewrite Hs. cbn [peek hd fst snd].
  destruct (Z.eqb_spec c 37); [contradiction|]. cbn. destruct s; cbn in *; subst; reflexivity.
Qed.
Lemma subset_junk : forall E S (H : handler S) c w, c <> 37 -> c <> 60 -> c <> 93 -> isBlankCh c = false ->
  forall n s, inp s = c :: w -> fst (subsetLoop E S H n s) = Oof.
Proof.
  intros E S H c w H37 H60 H93 Hb. induction n as [|n IH]; intros s Hs; [reflexivity|]. cbn [subsetLoop].
  assert (Hss : set_inp S (c :: w) s = s) by (destruct s; cbn in *; subst; reflexivity).
  apply (bind_oof _ _ _ _ _ _ false s). { unfold mdone, get, done. rewrite Hs. reflexivity. }
  apply (bind_oof _ _ _ _ _ _ c s). { unfold mpeek, lift, ppeek. rewrite Hs, Hss. reflexivity. }
  destruct (Z.eqb_spec c 93); [contradiction|]. cbn [orb].
  apply (bind_oof _ _ _ _ _ _ false s).
  { unfold mskip, lift, skipBlanks. rewrite Hs. cbn [takeW dropW]. rewrite Hb. rewrite Hss. reflexivity. }
  apply (bind_oof _ _ _ _ _ _ tt s).
  { unfold wrap, parseMarkupDecl. rewrite Hs. cbn [peek hd]. destruct (Z.eqb_spec c 60); [contradiction|].
    unfold wrap. rewrite (pe_other E S H s c w) by auto. reflexivity. }
  apply (bind_oof _ _ _ _ _ _ tt s). { unfold wrap. rewrite (pe_other E S H s c w) by auto. reflexivity. }
  apply IH; auto.
Qed.
Lemma hang_junk : forall eof, eof_ok eof -> hangs eof (s_ "<!DOCTYPE r [x]><r/>").
Proof.
  intros eof He n pct. do 3 (destruct n as [|n]; [destruct He as [->| ->]; destruct pct; vm_compute; reflexivity|]).
  destruct He as [->| ->]; destruct pct; unfold Parse, parseDocument; do 9 step;
    (apply bind_oof1; unfold parseDTD; do 3 step; apply bind_oof1; apply wrap_oof;
     unfold parseInternalSubset; step; change (negb (91 =? 91)) with false; cbv iota; apply bind_oof1; step; apply bind_oof1;
     apply (subset_junk _ _ _ 120 (s_ "]><r/>")); try discriminate; reflexivity).
Qed.
