(* The serialiser of Dump.v writes the text of the tree (Xml.v). *)
From Verif Require Import Base Utf8 Escape Scan Heap Dump Xml.

Lemma xsize_pos x : (1 <= xsize x)%nat.
Proof. destruct x; cbn [xsize]; lia. Qed.

Lemma ns_text_dump d : dumpNs d = ns_text d.
Proof. destruct d as [[|a p] [|b u]]; reflexivity. Qed.

Lemma dumpAttrKids_one h n t ct v : hget h t = Some ct -> dat ct = DText v -> l_next (lk ct) = None ->
  dumpAttrKids h (S n) (Some t) = Ret (escapeAttrValue v).
Proof.
  intros H D N. change (dumpAttrKids h (S n) (Some t)) with
    (match hget h t with
     | None => Pan
     | Some c => obind (match dat c with
                        | DText s => Ret (escapeAttrValue s)
                        | _ => match dumpNode h n t with Fail _ => Ret [] | r => r end
                        end) (fun s => obind (dumpAttrKids h n (l_next (lk c))) (fun r => Ret (s ++ r)))
     end : outcome herr str).
  rewrite H, D, N. cbn [obind]. destruct n; cbn; rewrite app_nil_r; reflexivity.
Qed.

Lemma dumpAttrs_step h n a c nm df : hget h a = Some c -> dat c = DAttr nm df ->
  dumpAttrs h (S n) (Some a) =
  obind (dumpAttrKids h n (l_first (lk c))) (fun v =>
  obind (dumpAttrs h n (l_next (lk c))) (fun r =>
  Ret (s_ " " ++ nm ++ s_ "=""" ++ v ++ s_ """" ++ r))).
Proof. intros H D. cbn [dumpAttrs]. rewrite H, D. reflexivity. Qed.

Lemma dumpNodes_step h n p : dumpNodes h (S n) (Some p) =
  obind (dumpNode h n p) (fun s =>
  match hget h p with
  | None => Pan
  | Some c => obind (dumpNodes h n (l_next (lk c))) (fun r => Ret (s ++ r))
  end).
Proof. reflexivity. Qed.

Lemma dumpNode_elem h n p c nm ns defs props : hget h p = Some c -> dat c = DElem nm ns defs props ->
  dumpNode h (S n) p =
  obind (dumpAttrs h n props) (fun a =>
  let head := s_ "<" ++ nameOf (DElem nm ns defs props) ++ flat_map dumpNs defs ++ a in
  match l_first (lk c) with
  | None => Ret (head ++ s_ "/>")
  | Some k =>
      obind (dumpNodes h n (Some k)) (fun s =>
      Ret (head ++ s_ ">" ++ s ++ s_ "</" ++ nameOf (DElem nm ns defs props) ++ s_ ">"))
  end).
Proof. intros H D. cbn [dumpNode]. rewrite H, D. reflexivity. Qed.

Lemma dumpNode_pi h n p c t d : hget h p = Some c -> dat c = DPI t d ->
  dumpNode h (S n) p = obind (dumpNodes h n (l_first (lk c))) (fun s => Ret (s_ "<>" ++ s ++ s_ "</>")).
Proof. intros H D. cbn [dumpNode]. rewrite H, D. reflexivity. Qed.

Lemma dumpNodes_none h n : dumpNodes h n None = Ret [].
Proof. destruct n; reflexivity. Qed.
Lemma dumpAttrKids_none h n : dumpAttrKids h n None = Ret [].
Proof. destruct n; reflexivity. Qed.

Lemma dumpAttrs_text h o l : attrs_at h o l -> forall n, (List.length l < n)%nat ->
  dumpAttrs h n o = Ret (flat_map att_text l).
Proof.
  induction 1; intros n Hn; (destruct n as [|n]; [lia|]); [reflexivity| |];
    rewrite (dumpAttrs_step _ _ _ _ _ _ H H0), H1; cbn [List.length] in Hn.
  - rewrite dumpAttrKids_none. cbn [obind].
    rewrite IHattrs_at by lia. cbn [obind flat_map]. unfold att_text at 2. cbn [fst snd].
    rewrite <- !app_assoc. reflexivity.
  - destruct n; [lia|]. rewrite (dumpAttrKids_one h n t ct v H2 H3 H4). cbn [obind].
    rewrite IHattrs_at by lia. cbn [obind flat_map]. unfold att_text at 2. cbn [fst snd].
    rewrite <- !app_assoc. reflexivity.
Qed.

Lemma str_eqb_false a b : a <> b -> str_eqb a b = false.
Proof. intros H. destruct (str_eqb a b) eqn:E; [|reflexivity]. apply str_eqb_eq in E. congruence. Qed.

Lemma dump_texts h :
  (forall p x, node_is h p x -> writable x -> forall n, (2 * xsize x <= n)%nat ->
     dumpNode h n p = Ret (node_text x)) /\
  (forall o l, nodes_at h o l -> writables l -> forall n, (2 * xsizes l < n)%nat ->
     dumpNodes h n o = Ret (flat_map node_text l)).
Proof.
  apply node_nodes.
  - intros p c nm ns defs props atts kids E D A K IH W n Hn.
    destruct n as [|n]; [cbn [xsize] in Hn; lia|]. rewrite (dumpNode_elem _ _ _ _ _ _ _ _ E D).
    cbn [xsize] in Hn. fold (xsizes kids) in Hn.
    rewrite (dumpAttrs_text _ _ _ A) by lia. cbn [obind].
    rewrite (flat_map_ext _ _ ns_text_dump). cbn [node_text].
    assert (Q : nameOf (DElem nm ns defs props) = quoted_name ns nm).
    { cbn [nameOf]. destruct ns as [[[|? ?] ?]|]; reflexivity. }
    rewrite Q. cbn [writable] in W. fold (writables kids) in W.
    specialize (IH W n). inversion K as [Hf|q cq x r Hq Hx Hr Hf]; subst.
    + unfold tag_text. rewrite <- !app_assoc. reflexivity.
    + rewrite Hf. rewrite IH by lia. cbn [obind]. unfold tag_text. rewrite <- !app_assoc. reflexivity.
  - intros p c s E D W n Hn. destruct n as [|n]; [cbn [xsize] in Hn; lia|]. cbn [dumpNode].
    rewrite E, D. cbn [writable] in W. rewrite str_eqb_false by exact W. reflexivity.
  - intros p c s E D W n Hn. destruct n as [|n]; [cbn [xsize] in Hn; lia|]. cbn [dumpNode].
    rewrite E, D. reflexivity.
  - intros p c t d E D F W n Hn. destruct n as [|n]; [cbn [xsize] in Hn; lia|]. 
    rewrite (dumpNode_pi _ _ _ _ _ _ E D), F, dumpNodes_none. reflexivity.
  - intros p c nm E D W n Hn. destruct n as [|n]; [cbn [xsize] in Hn; lia|]. cbn [dumpNode].
    rewrite E, D. reflexivity.
  - intros W n Hn. destruct n; reflexivity.
  - intros p c x r E Hx IHx Hr IHr [W1 W2] n Hn. destruct n as [|n]; [lia|]. rewrite dumpNodes_step.
    cbn [xsizes fold_right] in Hn. fold (xsizes r) in Hn. assert (P := xsize_pos x).
    rewrite IHx by (try exact W1; lia). cbn [obind]. rewrite E. rewrite IHr by (try exact W2; lia). reflexivity.
Qed.

Lemma dumpLines_text h : forall o l, nodes_at h o l -> writables l -> forall n, (2 * xsizes l < n)%nat ->
  dumpLines h n o = Ret (flat_map (fun x => node_text x ++ [10]) l).
Proof.
  intros o l; revert o. induction l as [|x r IH]; intros o H; inversion H as [|p c y r' E Hx Hr]; subst;
    intros W n Hn; (destruct n as [|n]; [lia|]); cbn [dumpLines]; [reflexivity|].
  destruct W as [W1 W2]. cbn [xsizes fold_right] in Hn. fold (xsizes r) in Hn. assert (P := xsize_pos x).
  rewrite (proj1 (dump_texts h) _ _ Hx W1) by lia. cbn [obind]. rewrite E.
  rewrite (IH _ Hr W2) by lia. cbn [obind flat_map]. rewrite <- !app_assoc. reflexivity.
Qed.

Lemma dumpDoc_text h d v e s l : document_is h d v e s l -> writables l ->
  forall n, (2 * xsizes l + 1 < n)%nat ->
  dumpDoc h n d = Ret (dumpDocContent v e s ++ flat_map (fun x => node_text x ++ [10]) l).
Proof.
  intros (c & i & x & E & D & K) W n Hn. unfold dumpDoc. destruct n as [|n]; [lia|].
  destruct n as [|n]; [lia|]. replace (dumpNode h (S n) d) with (Ret (E := herr) (dumpDocContent v e s))
    by (cbn [dumpNode]; rewrite E, D; reflexivity).
  rewrite E. cbn [obind]. rewrite (dumpLines_text _ _ _ K W) by lia. reflexivity.
Qed.
