(* A document without cyclic entities on which the tree builder overflows the
   stack, whatever its size: the test [looping] recognises the callback, the
   parser is run with a handler that makes the test first. *)
From Coq Require Import FMapPositive.
From Verif Require Import Base Utf8 Utf8Proofs Encoding Scan Parser Sim Sample Heap TreeBuilder TreeShape TreeOps Forest ForestOps ForestAttr History DtdProofs DtdHistory DtdLoop.
Local Open Scope Z_scope.

(* the attribute a='&f;' is added and f is followed by another entity only *)
Definition looping (s : tb) (e : event) : bool :=
  match e with
  | EStartElement _ _ [] [] [AAttr a [] v] =>
      str_eqb v (s_ "&f;") &&
      match tb_doc s with
      | Some d =>
          match hget (tb_heap s) d with
          | Some {| dat := DDoc _ _ _ (Some i) _ |} =>
              match hget (tb_heap s) i with
              | Some {| dat := DDtd _ _ _ t |} =>
                  match tget (t_ents t) (s_ "f") with
                  | Some x =>
                      match hget (tb_heap s) x with
                      | Some {| lk := Lk None _ _ (Some y) _; dat := DEntity nm ty _ _ c _ |} =>
                          match hget (tb_heap s) y with
                          | Some {| lk := Lk _ _ _ None _; dat := DEntity _ _ _ _ c' _ |} =>
                              str_eqb nm (s_ "f") && (ty =? 1) && str_eqb (c ++ c') (s_ "&f;") &&
                              (d <? nxt (tb_heap s))%positive && (i <? nxt (tb_heap s))%positive && (x <? nxt (tb_heap s))%positive && (y <? nxt (tb_heap s))%positive
                          | _ => false
                          end
                      | _ => false
                      end
                  | None => false
                  end
              | _ => false
              end
          | _ => false
          end
      | None => false
      end
  | _ => false
  end.
Lemma looping_panics f s v e : looping s e = true -> snd (tb_event f s v e) = HPanic.
Proof.
  intro L. destruct e as [| | | |lo pr u ns at_| | | | | | | | | | |]; try discriminate L. cbn [looping] in L.
  destruct u; [|discriminate L]. destruct ns; [|discriminate L]. destruct at_ as [|[a p w|] [|]]; try discriminate L; destruct p; try discriminate L.
  apply andb_prop in L as [Lv L]. apply str_eqb_eq in Lv. subst w.
  destruct (tb_doc s) as [d|] eqn:Hd; [|discriminate L].
  destruct (hget (tb_heap s) d) as [cd|] eqn:Ed; [|discriminate L]. destruct cd as [kd od dd]. destruct dd as [ve en sa [i|] xs| | | | | | | | | |]; try discriminate L.
  destruct (hget (tb_heap s) i) as [ci|] eqn:Ei; [|discriminate L]. destruct ci as [ki oi di]. destruct di as [| | | | | | | |n1 n2 n3 t| |]; try discriminate L.
  destruct (tget (t_ents t) (s_ "f")) as [x|] eqn:Ht; [|discriminate L].
  destruct (hget (tb_heap s) x) as [cx|] eqn:Ex; [|discriminate L]. destruct cx as [kx ox dx]. destruct kx as [[|] la pa [y|] pv]; try discriminate L.
  destruct dx as [| | | | | | |nm ty e1 e2 c og| | |]; try discriminate L.
  destruct (hget (tb_heap s) y) as [cy|] eqn:Ey; [|discriminate L]. destruct cy as [ky oy dy]. destruct ky as [fi2 la2 pa2 [|] pv2]; try discriminate L.
  destruct dy as [| | | | | | |nm2 ty2 f1 f2 c2 og2| | |]; try discriminate L.
  repeat (apply andb_prop in L as [L ?]). 
  repeat match goal with H : str_eqb _ _ = true |- _ => apply str_eqb_eq in H end.
  subst nm. match goal with H : c ++ c2 = _ |- _ => rename H into Hc end.
  destruct (Z.eqb_spec ty 1) as [->|]; [|discriminate].
  repeat match goal with H : (_ <? _)%positive = true |- _ => apply Pos.ltb_lt in H end.
  set (el := {| lk := nolinks; owner := Some d; dat := DElem lo None [] None |}).
  assert (G : fst (SetAttribute f (nxt (tb_heap s)) a (s_ "&f;") (with_new (tb_heap s) el)) = Oof).
  { match type of Ed with _ = Some ?z => set (cd := z) in * end. match type of Ei with _ = Some ?z => set (ci := z) in * end.
    match type of Ex with _ = Some ?z => set (cx := z) in * end. match type of Ey with _ = Some ?z => set (cy := z) in * end.
    assert (K : kept2 d i x y cd ci cx cy (tb_heap s)) by (unfold kept2; rewrite Ed, Ei, Ex, Ey; repeat split; auto).
    change (s_ "&f;") with (utf8 (38 :: 102 :: [] ++ [59])).
    apply (attribute_never2 d i x y cd ci cx cy ve en sa xs n1 n2 n3 t 102 [] [] 1 e1 e2 og c nm2 ty2 f1 f2 og2 c2) with (ce := el).
    - reflexivity.
    - reflexivity.
    - reflexivity.
    - reflexivity.
    - discriminate.
    - exact Ht.
    - repeat split; reflexivity.
    - repeat split; try discriminate. intros [].
    - rewrite Hc. reflexivity.
    - repeat constructor.
    - assert (N : forall z, (z < nxt (tb_heap s))%positive -> hget (with_new (tb_heap s) el) z = hget (tb_heap s) z).
      { intros z Hz. rewrite hget_new. destruct (Pos.eqb_spec z (nxt (tb_heap s))); [lia|reflexivity]. }
      destruct K as (K1 & K2 & K3 & K4 & K5). unfold kept2. rewrite !N by lia. repeat (split; [assumption|]). cbn. lia.
    - rewrite hget_new, Pos.eqb_refl. reflexivity.
    - reflexivity. }
  unfold tb_event. assert (A : fst (tb_action f s v (EStartElement lo pr [] [] [AAttr a [] (s_ "&f;")]) (tb_heap s)) = Oof).
  { cbn [tb_action]. apply hbind_oof. rewrite Hd. unfold startElement, CreateElement. rewrite (hbind_ret _ _ _ _ _ (alloc_run _ _ _)). fold el.
    cbn [setNamespaces]. do 2 (rewrite (hbind_ret _ _ _ _ _ (eq_refl (hret tt _)))). apply hbind_oof. cbn [setAttributes]. apply hbind_oof. exact G. }
  destruct (tb_action _ _ _ _ _) as [[[]| | |] h]; cbn [fst] in A; congruence || reflexivity.
Qed.

(* the tree builder, with the test first *)
Definition tested (f : nat) : handler tb := {|
  h_event := fun s v e => if looping s e then (fst (tb_event f s v e), HPanic) else tb_event f s v e;
  h_getEntity := tb_getEntity; h_getPEntity := tb_getPEntity; h_setOrig := tb_setOrig; h_mixed := tb_mixed; h_docEntity := tb_docEntity;
  h_createAttr := tb_createAttr f; h_chunkEnter := tb_chunkEnter; h_chunkLeave := tb_chunkLeave |}.
Lemma rsim_refl r : rsim r r. Proof. destruct r; cbn; auto. Qed.
Lemma tested_same f : hsim eq (treeH f) (tested f).
Proof.
  constructor; intros; subst; cbn [treeH tested h_event h_getEntity h_getPEntity h_setOrig h_mixed h_docEntity h_createAttr h_chunkEnter h_chunkLeave]; auto.
  destruct (looping b e) eqn:L; [|split; [reflexivity|apply rsim_refl]]. cbn [fst snd]. split; [reflexivity|]. rewrite (looping_panics f b v e L). exact I.
Qed.
Definition crash_src : str := s_ "<!DOCTYPE r [<!ENTITY f ''><!ENTITY g '&f;'>]><r a='&f;'/>".
Lemma crash_always eof f : eof_ok eof -> fst (Parse (env0 eof false) tb (treeH f) 100 tb_init crash_src) = Pan.
Proof.
  intros He. rewrite (proj1 (sim_Parse tb tb eq (env0 eof false) (treeH f) (tested f) (tested_same f) 100 tb_init tb_init crash_src eq_refl)).
  destruct He as [->| ->]; vm_compute; reflexivity.
Qed.
