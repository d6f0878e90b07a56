(* C74: the number of callbacks is at most linear in the length of the input.
   [tr] is the trace of the callbacks made, successful or not; decoders are
   assumed to make at most one character out of a byte. *)
From Verif Require Import Base Utf8 Encoding Scan ScanProofs Parser Doctype DoctypeCases Sample TreeBuilder TreeEntities Linear Blowup Power.
Local Open Scope Z_scope.

(* The handler knows no internal general entity. *)
Definition no_entities {S} (H : handler S) : Prop :=
  (forall h v n e b, snd (h_getEntity H h v n) = Answer (Some (Real e)) b -> e_type e <> InternalGeneralEntity) /\
  (forall h n e, h_docEntity H h n = Some (Some e) -> e_type e <> InternalGeneralEntity).

(* Whatever the input and however the parse ends, with a handler that knows no
   general entity. *)
Theorem C74_plain_partial : forall E, env_ok E -> (forall c l, (List.length (decode E c l) <= List.length l)%nat) ->
  forall S (H : handler S), no_entities H -> forall n h bytes,
  (List.length (tr (snd (Parse E S H n h bytes))) <= List.length bytes + 3)%nat.
Proof.
  intros E OK DL S H [NE ND] n h bytes. destruct (Parse E S H n h bytes) as [o s] eqn:Hp. cbn [snd].
  assert (G := Parse_linear E OK DL S H False (fun a b c d e f g => NE a b c d e f g) (fun a b c d e => ND a b c d e) n h bytes o s Hp).
  destruct o; intuition.
Qed.
(* Any handler, if the document is accepted and no reference to an entity was
   reported. *)
Theorem C74_accepted_partial : forall E, env_ok E -> (forall c l, (List.length (decode E c l) <= List.length l)%nat) ->
  forall S (H : handler S) n h bytes s, Parse E S H n h bytes = (Ret tt, s) -> (forall x r, ~ In (EReference x, r) (tr s)) ->
  (List.length (tr s) <= List.length bytes + 3)%nat.
Proof.
  intros E OK DL S H n h bytes s Hp Hn.
  destruct (Parse_linear E OK DL S H True (fun _ _ _ _ _ _ _ => I) (fun _ _ _ _ _ => I) n h bytes _ s Hp) as [G|[_ (x & r & Hi)]]; auto.
  exfalso. exact (Hn x r Hi).
Qed.
Lemma not_referred : forall l, forallb (fun y : event * hres => match fst y with EReference _ => false | _ => true end) l = true -> forall x r, ~ In (EReference x, r) l.
Proof. intros l Hl x r Hi. rewrite forallb_forall in Hl. discriminate (Hl _ Hi). Qed.
Definition lin_src : str := s_ "<!DOCTYPE r [<!ENTITY e 'x'><!--c-->]><r>a&lt;b&#48;<![CDATA[x]]></r><?p?>".
Example C74_ex : forall eof, eof_ok eof ->
  env_ok (env0 eof false) /\ (forall c l, (List.length (decode (env0 eof false) c l) <= List.length l)%nat) /\ no_entities plainH /\
  fst (Parse (env0 eof false) _ storeH 100 [] lin_src) = Ret tt /\
  (forall x r, ~ In (EReference x, r) (tr (snd (Parse (env0 eof false) _ storeH 100 [] lin_src)))) /\
  List.length (tr (snd (Parse (env0 eof false) _ storeH 100 [] lin_src))) = 15%nat.
Proof.
  intros eof He. split; [apply env0_ok, He|]. split; [intros c l; apply runes_short|]. split; [split; intros; discriminate|].
  destruct He as [->| ->]; (split; [vm_compute; reflexivity|]); (split; [|vm_compute; reflexivity]);
    apply not_referred; vm_compute; reflexivity.
Qed.

(* With entities it is false: there are documents of length linear in b that
   every handler which remembers entities accepts with at least b^20 callbacks. *)
Theorem C74_entities_refuted : exists document : nat -> str,
  (forall b, Z.of_nat (List.length (document b)) <= 63 * Z.of_nat b + 310) /\
  forall E, env_ok E -> forall S (H : handler S) known, remembers H known ->
  forall b h, (forall n, known h n = None) -> exists N, forall n, (N <= n)%nat ->
  exists s, Parse E S H n h (document b) = (Ret tt, s) /\ Z.of_nat b ^ 20 <= Z.of_nat (List.length (tr s)).
Proof. exists blowup. split; [exact blowup_length|exact blowup_reported]. Qed.
Example C74_entities_ex : remembers storeH stored /\ (forall n, stored [] n = None) /\
  firstn 61 (blowup 2) = s_ "<!DOCTYPE r [<!ENTITY a ''><!ENTITY b '&a;&a;'><!ENTITY c '&b" /\ ~ Z.of_nat 2 ^ 20 <= Z.of_nat (List.length (blowup 2)) + 3.
Proof. split; [exact storeH_remembers|]. split; [reflexivity|]. split; [reflexivity|]. vm_compute. intros Hx. apply Hx. reflexivity. Qed.

(* It is never worse than a polynomial of degree 21, because entities nest at
   most 20 deep: for every input, however the parse ends, and every handler
   that, told only of entities with at most L characters, knows only such.
   [good] are the states of the handler that it can reach in this way. *)
Definition told_short (L : nat) (e : event) : Prop :=
  match e with EEntityDecl _ t _ _ v => t = InternalGeneralEntity -> (List.length (runes_of v) <= L)%nat | _ => True end.
Definition short_entity (L : nat) (e : ent) : Prop := e_type e = InternalGeneralEntity -> (List.length (runes_of (e_content e)) <= L)%nat.
Definition knows_short {S} (H : handler S) (L : nat) (good : S -> Prop) : Prop :=
  (forall h v e, good h -> told_short L e -> good (fst (h_event H h v e))) /\
  (forall h v n, good h -> good (fst (h_getEntity H h v n)) /\
    (forall e b, snd (h_getEntity H h v n) = Answer (Some (Real e)) b -> short_entity L e)) /\
  (forall h v n, good h -> good (fst (h_getPEntity H h v n))) /\
  (forall h n e, good h -> h_docEntity H h n = Some (Some e) -> short_entity L e) /\
  (forall h e v, good h -> good (h_setOrig H h e v)) /\
  (forall h l p v, good h -> good (fst (h_createAttr H h l p v))) /\
  (forall h, good h -> good (h_chunkEnter H h)) /\
  (forall h h', good h -> good h' -> good (h_chunkLeave H h h')).
Theorem C74_power_partial : forall E, env_ok E -> (forall c l, (List.length (decode E c l) <= List.length l)%nat) ->
  forall S (H : handler S) L good, knows_short H L good ->
  forall n h bytes, good h -> (16 * List.length bytes <= L)%nat ->
  Z.of_nat (List.length (tr (snd (Parse E S H n h bytes)))) <= (Z.of_nat L + 1) ^ 20 * (Z.of_nat (List.length bytes) + 3).
Proof.
  intros E OK DL S H L good (G1 & G2 & G3 & G4 & G5 & G6 & G7 & G8) n h bytes Hg HL.
  exact (Parse_power E OK DL S H (List.length bytes) L HL good G1 G2 G3 G4 G5 G6 G7 G8 n h bytes Hg (le_n _)).
Qed.
Example C74_power_ex : forall eof, eof_ok eof ->
  (forall L, knows_short storeH L (Forall (fun p => (List.length (runes_of (snd p)) <= L)%nat))) /\
  forall n bytes, Z.of_nat (List.length (tr (snd (Parse (env0 eof false) _ storeH n [] bytes)))) <= (16 * Z.of_nat (List.length bytes) + 1) ^ 20 * (Z.of_nat (List.length bytes) + 3).
Proof.
  intros eof He. assert (Hk : forall L, knows_short storeH L (Forall (fun p => (List.length (runes_of (snd p)) <= L)%nat))).
  { intros L. split; [|repeat split; auto; discriminate || idtac].
    - intros h v e Hh Hs. destruct e; try exact Hh. cbn [h_event storeH fst]. match goal with |- context [?t =? InternalGeneralEntity] => destruct (Z.eqb_spec t InternalGeneralEntity) as [Ht|] end; [|exact Hh].
      constructor; [exact (Hs Ht)|exact Hh].
    - intros e b Hs _. cbn [h_getEntity storeH snd] in Hs. unfold stored in Hs. destruct (find _ h) as [p|] eqn:Hf; cbn [option_map] in Hs; inversion Hs; subst.
      apply find_some in Hf as [Hi _]. cbn [e_content]. rewrite Forall_forall in H. exact (H p Hi). }
  split; [exact Hk|]. intros n bytes.
  replace (16 * Z.of_nat (List.length bytes)) with (Z.of_nat (16 * List.length bytes)) by lia.
  apply (C74_power_partial (env0 eof false) (env0_ok _ _ He) (fun c l => runes_short l) _ storeH (16 * List.length bytes) _ (Hk _)). constructor. lia.
Qed.

(* The tree builder is such a handler: for every input, with whatever fuel. *)
Theorem C74_tree_partial : forall E, env_ok E -> (forall c l, (List.length (decode E c l) <= List.length l)%nat) ->
  forall f n bytes, Z.of_nat (List.length (tr (snd (Parse E tb (treeH f) n tb_init bytes)))) <= (16 * Z.of_nat (List.length bytes) + 1) ^ 20 * (Z.of_nat (List.length bytes) + 3).
Proof.
  intros E OK DL f n bytes. replace (16 * Z.of_nat (List.length bytes)) with (Z.of_nat (16 * List.length bytes)) by lia.
  apply (C74_power_partial E OK DL tb (treeH f) _ (knows (fun c => (List.length (runes_of c) <= 16 * List.length bytes)%nat))); [|apply knows_init|lia].
  refine (conj (knows_event _ f) (conj (knows_getEntity _ f) (conj _ (conj (knows_docEntity _ f) (conj (knows_setOrig _ f) (conj (knows_createAttr _ f) (conj (knows_enter _ f) (knows_leave _ f)))))))).
  intros; apply knows_getPEntity; assumption.
Qed.
Definition tree_src : str := s_ "<!DOCTYPE r [<!ENTITY e ''><!ENTITY f '&e;&e;'>]><r>a</r>".
Example C74_tree_ex : forall eof, eof_ok eof ->
  env_ok (env0 eof false) /\ (forall c l, (List.length (decode (env0 eof false) c l) <= List.length l)%nat) /\
  fst (Parse (env0 eof false) tb (treeH 20) 100 tb_init tree_src) = Ret tt /\
  List.length (tr (snd (Parse (env0 eof false) tb (treeH 20) 100 tb_init tree_src))) = 10%nat.
Proof.
  intros eof He. split; [apply env0_ok, He|]. split; [intros c l; apply runes_short|]. destruct He as [->| ->]; (split; vm_compute; reflexivity).
Qed.

(* ---- assumptions ---- *)
Print Assumptions C74_plain_partial.
Print Assumptions C74_accepted_partial.
Print Assumptions C74_entities_refuted.
Print Assumptions C74_power_partial.
Print Assumptions C74_tree_partial.
