(* The tables of attribute types and defaults after a document type
   declaration, as they follow from the declarations reported. *)
From Coq Require Import Permutation.
From Verif Require Import Base Utf8 Utf8Proofs Encoding XmlSpec EscapeProofs Scan ScanProofs LexProofs Parser Effects TextProofs Complete Local Counter Loose LooseLex LooseProofs LooseDecl LooseDoc Content TermDtd Doctype DoctypeAttr
  Grammar LooseDtd LooseModel LooseSubset LooseBody LooseDtdDoc LooseBodyProofs.
From Coq Require Import ZifyBool.
Local Open Scope Z_scope.

(* ---- the specification, one declaration at a time ---- *)
Definition labels (ds : list (str * str * Z * Z * str)) : list str := map (fun x => let '(el, a, _, _, _) := x in label el a) ds.
Lemma att_decls_app : forall a b, att_decls (a ++ b) = att_decls a ++ att_decls b. Proof. intros. apply flat_map_app. Qed.
Lemma typed_snoc : forall ds el a t d v k, typed (ds ++ [(el, a, t, d, v)]) k = if str_eqb (label el a) k then Some t else typed ds k.
Proof.
  induction ds as [|[[[[e0 a0] t0] d0] v0] ds IH]; intros el a t d v k; [reflexivity|]. cbn [app typed]. rewrite IH. destruct (str_eqb (label el a) k); reflexivity.
Qed.
Lemma typed_labels : forall ds k, typed ds k = None <-> ~ In k (labels ds).
Proof.
  induction ds as [|[[[[e0 a0] t0] d0] v0] ds IH]; intros k; cbn [typed labels map In]; [tauto|]. destruct (typed ds k) eqn:Ht.
  - split; [discriminate|]. intros Hn. exfalso. apply Hn. right. destruct (in_dec (list_eq_dec Z.eq_dec) k (labels ds)) as [|Hno]; [auto|]. apply IH in Hno. congruence.
  - assert (Hno : ~ In k (labels ds)) by (apply IH; auto). destruct (str_eqb_spec (label e0 a0) k); [split; [discriminate|tauto]|tauto].
Qed.
Lemma defaults_snoc : forall ds seen el a t d v, first_defaults seen (ds ++ [(el, a, t, d, v)]) =
  first_defaults seen ds ++ (if existsb (str_eqb (label el a)) (rev (labels ds) ++ seen) || str_eqb v [] || (d =? DefImplied) || (d =? DefRequired) then [] else [(el, a, v)]).
Proof.
  induction ds as [|[[[[e0 a0] t0] d0] v0] ds IH]; intros seen el a t d v; [cbn [app first_defaults labels map rev]; rewrite app_nil_r; reflexivity|].
  cbn [app first_defaults labels map rev]. rewrite IH, <- !app_assoc. cbn [app]. reflexivity.
Qed.
Lemma defaults_labels : forall ds seen e a v, In (e, a, v) (first_defaults seen ds) -> In (label e a) (labels ds).
Proof.
  induction ds as [|[[[[e0 a0] t0] d0] v0] ds IH]; intros seen e a v Hin; [contradiction|]. cbn [first_defaults] in Hin. cbn [labels map In]. apply in_app_or in Hin as [Hin|Hin]; [|right; eapply IH; eauto].
  match type of Hin with In _ (if ?b then _ else _) => destruct b end; [contradiction|]. destruct Hin as [Hin|[]]. inversion Hin; auto.
Qed.
Lemma some_in : forall A (a b : list A) x, some_of a b -> In x a -> In x b.
Proof. intros A a b x Hs. induction Hs; intros Hin; auto. - destruct Hin; [left; auto|right; auto]. - right; auto. Qed.
Lemma some_refl : forall A (a : list A), some_of a a. Proof. induction a; constructor; auto. Qed.
Lemma some_app : forall A (a b c d : list A), some_of a b -> some_of c d -> some_of (a ++ c) (b ++ d).
Proof. intros A a b c d Hs Hc. induction Hs; cbn [app]; [auto|constructor; auto|constructor; auto]. Qed.
Lemma parts_is : forall a pre, parts pre a = match split_colon a with Some (p, l) => (pre ++ p, l) | None => ([], pre ++ a) end.
Proof.
  induction a as [|c a IH]; intros pre; cbn [parts split_colon]; [rewrite app_nil_r; reflexivity|]. destruct (c =? 58); [rewrite app_nil_r; reflexivity|].
  rewrite IH. destruct (split_colon a) as [[p l]|]; rewrite <- app_assoc; reflexivity.
Qed.
Lemma parts_prefix : forall a, parts [] a = prefix_local a. Proof. intros a. rewrite parts_is. unfold prefix_local. destruct (split_colon a) as [[p l]|]; reflexivity. Qed.

(* the map of types *)
Lemma lookup_put : forall l k t k', lookupSpecial (putSpecial k t l) k' = if str_eqb k k' then Some t else lookupSpecial l k'.
Proof.
  intros l k t k'. unfold putSpecial, lookupSpecial. cbn [find fst]. destruct (str_eqb_spec k k') as [|Hne]; [auto|].
  assert (Q : find (fun p : str * Z => str_eqb (fst p) k') (filter (fun p : str * Z => negb (str_eqb (fst p) k)) l) = find (fun p : str * Z => str_eqb (fst p) k') l); [|rewrite Q; reflexivity].
  induction l as [|[a b] l IH]; [reflexivity|]. cbn [filter find fst]. destruct (str_eqb_spec a k) as [->|Hak]; cbn [negb].
  - rewrite IH. destruct (str_eqb_spec k k'); [contradiction|reflexivity].
  - cbn [find fst]. rewrite IH. reflexivity.
Qed.
Lemma put_nodup : forall l k t, NoDup (map fst l) -> NoDup (map fst (putSpecial k t l)).
Proof.
  intros l k t Hn. unfold putSpecial. cbn [map fst]. constructor.
  - intros Hin. apply in_map_iff in Hin as ([a b] & Ha & Hin). apply filter_In in Hin as [_ Hin]. cbn [fst] in *. subst a. rewrite str_eqb_refl in Hin. discriminate.
  - clear -Hn. induction l as [|[a b] l IH]; [constructor|]. cbn [filter fst]. cbn [map fst] in Hn. inversion Hn; subst. destruct (negb (str_eqb a k)); [|auto]. cbn [map fst]. constructor; [|auto].
    intros Hin. apply in_map_iff in Hin as (x & Hx & Hin). apply filter_In in Hin as [Hin _]. apply H1. apply in_map_iff. eauto.
Qed.
Lemma lookup_filter : forall l k f, NoDup (map fst l) ->
  lookupSpecial (filter (fun p => f (snd p)) l) k = match lookupSpecial l k with Some t => if f t then Some t else None | None => None end.
Proof.
  intros l k f Hn. unfold lookupSpecial. induction l as [|[a b] l IH]; [reflexivity|]. cbn [map fst] in Hn. inversion Hn; subst. specialize (IH H2). cbn [filter find fst snd]. destruct (str_eqb_spec a k) as [->|Hak].
  - destruct (f b) eqn:Hf; [cbn [find fst]; rewrite str_eqb_refl; reflexivity|]. rewrite IH. destruct (find (fun p => str_eqb (fst p) k) l) as [[x y]|] eqn:Hfd; [|reflexivity].
    exfalso. apply find_some in Hfd as [Hin Hx]. cbn [fst] in Hx. destruct (str_eqb_spec x k); [subst|discriminate]. apply H1. apply in_map_iff. exists (k, y). auto.
  - destruct (f b); [cbn [find fst]; destruct (str_eqb_spec a k); [contradiction|exact IH]|exact IH].
Qed.

Section S.
Variable E : env.
Hypothesis OK : env_ok E.
Hypothesis NC : forall c, isLetter E c || isDigit E c = true -> xml_char c = true.
Hypothesis OV : forall n l, over E n l = [].
Variable S : Type.
Variable H : handler S.

Definition told (s : pst S) : list event := rev (map fst (tr s)).
Definition entry (x : str * str * str) : str * str * (str * str * str) := let '(e, a, v) := x in (e, a, (snd (prefix_local a), fst (prefix_local a), v)).
Record tables (s : pst S) : Prop := {
  t_ns : nsTab s = [];
  t_types : forall k, lookupSpecial (attsSpecial s) k = typed (att_decls (told s)) k;
  t_keys : NoDup (map fst (attsSpecial s));
  t_given : exists given, some_of given (first_defaults [] (att_decls (told s))) /\ (creates H -> given = first_defaults [] (att_decls (told s))) /\ attsDefault s = map entry given }.

(* ---- functions that leave them alone ---- *)
Definition same (s s' : pst S) : Prop := nsTab s' = nsTab s /\ kept S s s' /\ att_decls (told s') = att_decls (told s).
Lemma same_refl : forall s, same s s. Proof. repeat split. Qed.
Lemma same_trans : forall s s1 s2, same s s1 -> same s1 s2 -> same s s2.
Proof. intros s s1 s2 (A & (B & C) & D) (A' & (B' & C') & D'). repeat split; congruence. Qed.
Lemma same_tables : forall s s', same s s' -> tables s -> tables s'.
Proof.
  intros s s' (A & (B & C) & D) [T1 T2 T3 T4]. constructor; [congruence| | |]; rewrite ?B, ?C, ?D; auto.
Qed.
Definition quiet {A} (m : M S A) : Prop := forall s a s', m s = (Ret a, s') -> same s s'.
Lemma quiet_bind : forall A B (m : M S A) (f : A -> M S B), quiet m -> (forall a, quiet (f a)) -> quiet (bind S m f).
Proof. intros A B m f Hm Hf s b s' Hb. apply bind_inv in Hb as (a & s1 & H1 & Hb). eapply same_trans; [eapply Hm; eauto|eapply Hf; eauto]. Qed.
Lemma quiet_wrap : forall A (m : M S A), quiet m -> quiet (wrap S m). Proof. intros A m Hm s a s' Hw. apply wrap_inv in Hw. eauto. Qed.
Lemma quiet_lift : forall A (p : P A), quiet (lift S p). Proof. intros A p s a s' Hl. apply lift_inv in Hl as (l & _ & ->). repeat split. Qed.
Definition harmless (e : event) : Prop := match e with EAttributeDecl _ _ _ _ _ _ => False | _ => True end.
Lemma quiet_raw : forall e, harmless e -> quiet (emit_raw S H e).
Proof.
  intros e He s a s' Hm. unfold emit_raw in Hm. destruct (h_event H (hs s) (the_view S s) e) as [h r].
  assert (Q : forall s1, tr s1 = (e, r) :: tr s -> att_decls (told s1) = att_decls (told s)).
  { intros s1 Ht. unfold told. rewrite Ht. cbn [map fst rev]. rewrite att_decls_app. destruct e; try contradiction; cbn; apply app_nil_r. }
  destruct r; inversion Hm; subst; (split; [reflexivity|]; split; [split; reflexivity|]; apply Q; reflexivity).
Qed.
Lemma quiet_emit : forall e, harmless e -> quiet (emit S H e). Proof. intros e He. apply quiet_wrap, quiet_raw; auto. Qed.
Lemma quiet_ret : forall A (x : A), quiet (ret S x). Proof. intros A x s a s' Hm. inversion Hm; subst. apply same_refl. Qed.
Lemma quiet_mlift : forall A (x : outcome gerr A), quiet (mlift S x). Proof. intros A x s a s' Hm. unfold mlift in Hm. inversion Hm; subst. apply same_refl. Qed.
Lemma quiet_fail : forall A (e : gerr), quiet (fail S e : M S A). Proof. intros A e s a s' Hm. discriminate. Qed.
Lemma quiet_failw : forall A e, quiet (failw S e : M S A). Proof. intros A e s a s' Hm. discriminate. Qed.
Lemma quiet_pan : forall A, quiet (pan S : M S A). Proof. intros A s a s' Hm. discriminate. Qed.
Lemma quiet_get : forall A (f : pst S -> A), quiet (get S f). Proof. intros A f s a s' Hm. inversion Hm; subst. apply same_refl. Qed.
Lemma quiet_done : quiet (mdone S). Proof. intros s a s' Hm. inversion Hm; subst. apply same_refl. Qed.
Lemma quiet_query : forall n, quiet (queryEntity S H n).
Proof. intros n s a s' Hm. unfold queryEntity in Hm. destruct (h_getEntity H (hs s) (the_view S s) n) as [h [x err|]]; inversion Hm; subst; repeat split; auto. Qed.
Lemma quiet_pquery : forall n, quiet (queryPEntity S H n).
Proof. intros n s a s' Hm. unfold queryPEntity in Hm. destruct (h_getPEntity H (hs s) (the_view S s) n) as [h [x err|]]; inversion Hm; subst; repeat split; auto. Qed.
Lemma quiet_docEntity : forall n, quiet (getEntity S H n).
Proof. intros n s a s' Hm. unfold getEntity in Hm. destruct (inSubset s =? 0); [inversion Hm; subst; apply same_refl|]. destruct (h_docEntity _ _ _); inversion Hm; subst; apply same_refl. Qed.
Lemma quiet_modify : forall f, (forall s, same s (f s)) -> quiet (modify S f). Proof. intros f Hf s a s' Hm. inversion Hm; subst. apply Hf. Qed.
Create HintDb quiet.
Hint Resolve quiet_bind quiet_wrap quiet_lift quiet_ret quiet_mlift quiet_fail quiet_failw quiet_pan quiet_get quiet_done quiet_query quiet_pquery quiet_docEntity : quiet.
Hint Extern 2 (quiet (emit _ _ _)) => apply quiet_emit; exact I : quiet.
Hint Extern 2 (quiet (emit_raw _ _ _)) => apply quiet_raw; exact I : quiet.
Hint Extern 2 (quiet (modify _ _)) => apply quiet_modify; intros; repeat split : quiet.
Ltac qt := repeat first [progress intros | progress cbv zeta | apply quiet_bind | match goal with |- quiet (if ?b then _ else _) => destruct b | |- quiet (match ?x with _ => _ end) => destruct x end | solve [auto with quiet]
  | unfold mpeek, mpeekn, madvance, mskip, mconsume, mhas; solve [auto with quiet]].
Lemma quiet_entityRef : quiet (parseEntityRef E S H). Proof. unfold parseEntityRef. qt. Qed.
Hint Resolve quiet_entityRef : quiet.
Lemma quiet_value : forall n q nz b sp k, quiet (attrValueLoop E S H n q nz b sp k).
Proof. induction n as [|n IH]; intros q nz b sp k; cbn [attrValueLoop]; [intros s a s' Hm; discriminate|]. qt. Qed.
Hint Resolve quiet_value : quiet.
Lemma quiet_default : forall n, quiet (parseDefaultDecl E S H n). Proof. intros n. unfold parseDefaultDecl, parseAttributeValueInternal. qt. Qed.
Lemma quiet_pi : quiet (parsePI E S H). Proof. unfold parsePI. qt. Qed.
Lemma quiet_comment : quiet (parseComment E S H). Proof. unfold parseComment. qt. Qed.
Lemma quiet_pe : quiet (parsePEReference E S H). Proof. unfold parsePEReference. qt. Qed.
Lemma quiet_element : forall n, quiet (parseElementDecl E S H n). Proof. intros n. unfold parseElementDecl. qt. Qed.
Lemma quiet_unquoted : forall v, quiet (unquotedEntity E S H v). Proof. intros v. unfold unquotedEntity. qt. Qed.
Hint Resolve quiet_default quiet_pi quiet_comment quiet_pe quiet_element quiet_unquoted : quiet.
Lemma quiet_entity : quiet (parseEntityDecl E S H). Proof. unfold parseEntityDecl. qt. Qed.
Hint Resolve quiet_entity : quiet.

(* ---- a declaration of an attribute ---- *)
Lemma fill : forall el a t d v enum s u1 s1 u2 s2, tables s ->
  emit S H (EAttributeDecl el a t d v enum) s = (Ret u1, s1) ->
  (if negb (str_eqb v []) && negb (d =? DefImplied) && negb (d =? DefRequired) then addAttributeDefault S H el a v else ret S tt) s1 = (Ret u2, s2) ->
  tables (set_special S (putSpecial (special_key el a) t (attsSpecial s2)) s2).
Proof.
  intros el a t d v enum s u1 s1 u2 s2 [T1 T2 T3 (given & G1 & G2 & G3)] H1 H2.
  assert (P : nsTab s1 = nsTab s /\ kept S s s1 /\ told s1 = told s ++ [EAttributeDecl el a t d v enum]).
  { apply wrap_inv in H1. unfold emit_raw in H1. destruct (h_event _ _ _ _) as [h []]; inversion H1; subst; unfold told; cbn [tr map fst rev]; repeat split; auto. }
  destruct P as (P1 & (P2 & P3) & P4). clear H1.
  assert (D : att_decls (told s1) = att_decls (told s) ++ [(el, a, t, d, v)]) by (rewrite P4, att_decls_app; reflexivity).
  set (ds := att_decls (told s)) in *.
  assert (K : existsb (str_eqb (label el a)) (rev (labels ds) ++ []) = match lookupSpecial (attsSpecial s) (special_key el a) with Some _ => true | None => false end).
  { rewrite T2, app_nil_r. change (special_key el a) with (label el a). destruct (existsb _ _) eqn:Hx.
    - apply existsb_exists in Hx as (x & Hin & Hx). destruct (str_eqb_spec (label el a) x); [subst x|discriminate]. apply in_rev in Hin. destruct (typed ds (label el a)) eqn:Ht; [auto|]. apply typed_labels in Ht. contradiction.
    - destruct (typed ds (label el a)) eqn:Ht; [|auto]. exfalso. assert (Hni : ~ In (label el a) (labels ds)).
      { intros Hin. assert (Hc : existsb (str_eqb (label el a)) (rev (labels ds)) = true); [|congruence]. apply existsb_exists. exists (label el a). split; [apply -> in_rev; auto|apply str_eqb_refl]. }
      apply typed_labels in Hni. congruence. }
  assert (R : nsTab s2 = nsTab s /\ attsSpecial s2 = attsSpecial s /\ told s2 = told s1 /\ exists more, attsDefault s2 = attsDefault s ++ map entry more /\
    some_of more (if existsb (str_eqb (label el a)) (rev (labels ds) ++ []) || str_eqb v [] || (d =? DefImplied) || (d =? DefRequired) then [] else [(el, a, v)]) /\
    (creates H -> more = (if existsb (str_eqb (label el a)) (rev (labels ds) ++ []) || str_eqb v [] || (d =? DefImplied) || (d =? DefRequired) then [] else [(el, a, v)]))).
  { assert (Z0 : forall b, b = true -> (forall x, s2 = x -> x = s1 -> nsTab s2 = nsTab s /\ attsSpecial s2 = attsSpecial s /\ told s2 = told s1 /\ exists more, attsDefault s2 = attsDefault s ++ map entry more /\
      some_of more (if b : bool then [] else [(el, a, v)]) /\ (creates H -> more = (if b then [] else [(el, a, v)])))).
    { intros b -> x -> ->. do 3 (split; [auto|]). exists []. cbn [map]. rewrite app_nil_r. split; [auto|]. split; [constructor|auto]. }
    rewrite K. destruct (str_eqb v []) eqn:Hv; [cbn [negb andb] in H2; injection H2 as _ <-; eapply Z0; [rewrite !orb_true_r; reflexivity|reflexivity|reflexivity]|].
    destruct (d =? DefImplied) eqn:Hdi; [cbn [negb andb] in H2; injection H2 as _ <-; eapply Z0; [rewrite !orb_true_r; reflexivity|reflexivity|reflexivity]|].
    destruct (d =? DefRequired) eqn:Hdr; [cbn [negb andb] in H2; injection H2 as _ <-; eapply Z0; [rewrite !orb_true_r; reflexivity|reflexivity|reflexivity]|].
    cbn [negb andb] in H2. unfold addAttributeDefault in H2. apply bind_inv in H2 as (sp & s3 & H3 & H2). inversion H3; subst s3 sp. clear H3. rewrite P2 in H2.
    destruct (lookupSpecial (attsSpecial s) (special_key el a)) eqn:Hl; [injection H2 as _ <-; eapply Z0; [reflexivity|reflexivity|reflexivity]|]. cbn [orb]. clear Z0.
    destruct (prefix_local a) as [pr lo] eqn:Hpl. destruct (h_createAttr H (hs s1) lo pr v) as [h o] eqn:Hc.
    assert (F : filter (fun p : str * str * (str * str * str) => negb (str_eqb (fst (fst p)) el && str_eqb (snd (fst p)) a)) (attsDefault s) = attsDefault s).
    { rewrite G3. clear -G1 T2 Hl. assert (Q : forall e0 a0 v0, In (e0, a0, v0) given -> str_eqb e0 el && str_eqb a0 a = false).
      { intros e0 a0 v0 Hin. destruct (str_eqb_spec e0 el) as [->|]; [|auto]. destruct (str_eqb_spec a0 a) as [->|]; [|auto]. exfalso. eapply some_in in Hin; [|exact G1]. apply defaults_labels in Hin.
        rewrite T2 in Hl. apply typed_labels in Hl. contradiction. }
      clear G1. induction given as [|[[e0 a0] v0] given IH]; [reflexivity|]. cbn [map filter entry fst snd]. rewrite (Q e0 a0 v0) by (left; auto). cbn [negb]. f_equal. apply IH. intros. eapply Q. right; eauto. }
    destruct o; [| |discriminate|discriminate]; injection H2 as _ <-; cbn [set_default set_hs nsTab attsSpecial attsDefault]; (do 2 (split; [auto|])); (split; [reflexivity|]).
    - exists [(el, a, v)]. cbn [map entry]. rewrite P3, F, Hpl. cbn [fst snd]. split; [reflexivity|]. split; [apply some_refl|auto].
    - exists []. cbn [map]. rewrite app_nil_r. split; [auto|]. split; [constructor; constructor|]. intros Hcr. destruct (Hcr (hs s1) lo pr v) as [h' Hh]. congruence. }
  destruct R as (R1 & R2 & R3 & more & R4 & R5 & R6).
  assert (D' : att_decls (told (set_special S (putSpecial (special_key el a) t (attsSpecial s2)) s2)) = ds ++ [(el, a, t, d, v)]).
  { change (told (set_special S (putSpecial (special_key el a) t (attsSpecial s2)) s2)) with (told s2). rewrite R3. exact D. }
  constructor; cbn [set_special nsTab attsSpecial attsDefault]; [congruence| | |].
  - intros k. rewrite D', R2, lookup_put, typed_snoc, T2. reflexivity.
  - rewrite R2. apply put_nodup. auto.
  - rewrite D', defaults_snoc. exists (given ++ more). split; [apply some_app; auto|]. split; [intros Hcr; rewrite (G2 Hcr) at 1; rewrite (R6 Hcr); reflexivity|]. rewrite R4, G3, map_app. reflexivity.
Qed.
Definition fills {A} (m : M S A) : Prop := forall s a s', tables s -> m s = (Ret a, s') -> tables s'.
Lemma quiet_fills : forall A (m : M S A), quiet m -> fills m. Proof. intros A m Hq s a s' Ht Hm. eapply same_tables; eauto. Qed.
Lemma fills_bind : forall A B (m : M S A) (f : A -> M S B), fills m -> (forall a, fills (f a)) -> fills (bind S m f).
Proof. intros A B m f Hm Hf s b s' Ht Hb. apply bind_inv in Hb as (a & s1 & H1 & Hb). eapply Hf; [|eauto]. eapply Hm; eauto. Qed.
Lemma fills_wrap : forall A (m : M S A), fills m -> fills (wrap S m). Proof. intros A m Hm s a s' Ht Hw. apply wrap_inv in Hw. eauto. Qed.
Ltac fl := repeat first [progress intros | progress cbv zeta | match goal with |- fills (if ?b then _ else _) => destruct b | |- fills (match ?x with _ => _ end) => destruct x end | solve [auto with quiet]
  | solve [apply quiet_fills; qt] | apply fills_bind].
Lemma fills_attlist : forall n el, fills (attlistLoop E S H n el).
Proof.
  induction n as [|n IH]; intros el; cbn [attlistLoop]; [intros s a s' _ Hm; discriminate|].
  repeat first [progress intros | progress cbv zeta | match goal with |- fills (if ?b then _ else _) => destruct b | |- fills (match ?x with _ => _ end) => destruct x end
  | solve [apply quiet_fills; qt] | lazymatch goal with |- fills (bind _ (emit _ _ _) _) => fail | _ => apply fills_bind end].
  intros s0 x s0' Ht Hm. apply bind_inv in Hm as (u1 & s1 & H1 & Hm). apply bind_inv in Hm as (u2 & s2 & H2 & Hm). apply bind_inv in Hm as (u3 & s3 & H3 & Hm). injection H3 as _ <-.
  pose proof (fill _ _ _ _ _ _ _ _ _ _ _ Ht H1 H2) as Hf. revert Hf Hm. match goal with |- tables ?x -> _ => generalize x end. intros s3 Hf Hm.
  apply bind_inv in Hm as (c4 & s4 & H4 & Hm). assert (Ht4 : tables s4) by (eapply quiet_fills; [|exact Hf|exact H4]; unfold mpeek; auto with quiet).
  destruct (c4 =? 62); [|eapply IH; eauto]. eapply quiet_fills; [|exact Ht4|exact Hm]. unfold madvance. auto with quiet.
Qed.
Hint Resolve fills_bind fills_wrap : fills.
Lemma fills_markup : forall n, fills (parseMarkupDecl E S H n).
Proof.
  intros n s a s' Ht Hm. unfold parseMarkupDecl in Hm. cbv zeta in Hm. revert Ht Hm.
  match goal with |- _ -> ?m s = _ -> _ => assert (Hf : fills m); [|intros Ht Hm; eapply Hf; eauto] end.
  assert (Ha : fills (parseAttributeListDecl E S H n)) by (unfold parseAttributeListDecl; fl; apply fills_attlist).
  fl; try (apply fills_wrap; exact Ha); apply quiet_fills; qt.
Qed.
Lemma fills_subset : forall n, fills (subsetLoop E S H n).
Proof.
  induction n as [|n IH]; cbn [subsetLoop]; [intros s a s' _ Hm; discriminate|]. pose proof (fills_markup n) as Hmk. fl; try apply fills_wrap; auto.
Qed.
Lemma quiet_doctype : quiet (parseDocTypeDecl E S H). Proof. unfold parseDocTypeDecl. qt. Qed.
Lemma fills_internal : forall n, fills (parseInternalSubset E S H n). Proof. intros n. pose proof (fills_subset n) as Hs. unfold parseInternalSubset. fl; auto. Qed.

(* ---- the declaration, up to what follows it ---- *)
Lemma dtd_fills : forall n s u s', parseDTD E S H n s = (Ret u, s') -> nsTab s = [] -> attsSpecial s = [] -> attsDefault s = [] -> att_decls (told s) = [] ->
  exists t devs sm given, inp s = t ++ inp sm /\ map fst (tr sm) = rev devs ++ map fst (tr s) /\ doctype_text E (truthful H) t devs /\ nsTab sm = [] /\
    (forall k, lookupSpecial (attsSpecial sm) k = match typed (att_decls devs) k with Some ty => if negb (ty =? AttrCDATA) then Some ty else None | None => None end) /\
    some_of given (first_defaults [] (att_decls devs)) /\ (creates H -> given = first_defaults [] (att_decls devs)) /\ attsDefault sm = map entry given /\
    wrap S (parseMisc E S H n) sm = (Ret u, s').
Proof.
  intros n s u s' Hm Hns Hsp Hdf Hev. unfold parseDTD in Hm. apply bind_inv in Hm as (u1 & s1 & H1 & Hm). injection H1 as _ <-.
  apply bind_inv in Hm as (u2 & s2 & H2 & Hm). apply bind_inv in Hm as (sub & s3 & H3 & Hm). apply bind_inv in Hm as (u4 & s4 & H4 & Hm).
  apply bind_inv in Hm as (u5 & s5 & H5 & Hm). apply bind_inv in Hm as (nm & s6 & H6 & Hm). apply bind_inv in Hm as (u7 & s7 & H7 & Hm).
  assert (Hd : exists t devs, inp s = t ++ inp s7 /\ map fst (tr s7) = rev devs ++ map fst (tr s) /\ doctype_text E (truthful H) t devs).
  { apply (doctype_tells E OK NC OV S H n (set_inSubset S 1 s) u7 s7). unfold bind at 1. rewrite H2. unfold bind at 1. rewrite H3. unfold bind at 1. rewrite H4. unfold bind at 1. rewrite H5. unfold bind at 1. rewrite H6. exact H7. }
  destruct Hd as (t & devs & Hi & Ht & Hdt).
  assert (T : tables s7).
  { assert (T0 : tables (set_inSubset S 1 s)).
    { constructor; cbn [set_inSubset nsTab attsSpecial attsDefault]; change (told (set_inSubset S 1 s)) with (told s); rewrite ?Hsp, ?Hdf, ?Hev; auto; [constructor|]. exists []. split; [constructor|auto]. }
    assert (T2 : tables s2) by (eapply quiet_fills; [apply quiet_wrap, quiet_doctype|exact T0|exact H2]).
    assert (T3 : tables s3) by (eapply quiet_fills; [|exact T2|exact H3]; unfold mhas; auto with quiet).
    assert (T4 : tables s4) by (destruct sub; [eapply fills_wrap; [apply fills_internal|exact T3|exact H4]|injection H4 as _ <-; auto]).
    assert (T5 : tables s5) by (eapply quiet_fills; [|exact T4|exact H5]; auto with quiet).
    assert (T6 : tables s6) by (eapply quiet_fills; [|exact T5|exact H6]; auto with quiet).
    eapply quiet_fills; [|exact T6|exact H7]. auto with quiet. }
  assert (Hds : att_decls (told s7) = att_decls devs).
  { unfold told in *. rewrite Ht, rev_app_distr, att_decls_app, rev_involutive, Hev. reflexivity. }
  destruct T as [A1 A2 A3 (given & A4 & A5 & A6)]. rewrite Hds in *.
  apply bind_inv in Hm as (u8 & s8 & H8 & Hm). injection H8 as _ <-. apply bind_inv in Hm as (u9 & s9 & H9 & Hm). injection H9 as _ <-.
  match type of Hm with wrap _ _ ?sm = _ => exists t, devs, sm, given end. cbn [set_special set_inSubset inp tr nsTab attsSpecial attsDefault].
  do 4 (split; [auto|]). split; [|auto]. intros k. rewrite (lookup_filter (attsSpecial s7) k (fun ty => negb (ty =? AttrCDATA))) by auto. rewrite A2. reflexivity.
Qed.

(* ---- the document ---- *)
Lemma added_is : forall given nm, map (fun x => let '(l, p, v) := x in ADefault l p v) (defaultsOf nm (map entry given)) = added given nm.
Proof.
  intros given nm. unfold added, defaultsOf. induction given as [|[[e a] v] given IH]; [reflexivity|]. cbn [map filter flat_map entry fst snd]. rewrite parts_prefix. destruct (str_eqb e nm); cbn [map app snd]; rewrite IH; reflexivity.
Qed.
Lemma init_quiet : forall A (m : M S A), quiet m -> forall s a s', m s = (Ret a, s') -> nsTab s = [] /\ attsSpecial s = [] /\ attsDefault s = [] /\ att_decls (told s) = [] ->
  nsTab s' = [] /\ attsSpecial s' = [] /\ attsDefault s' = [] /\ att_decls (told s') = [].
Proof. intros A m Hq s a s' Hm (P1 & P2 & P3 & P4). apply Hq in Hm as (Q1 & (Q2 & Q3) & Q4). repeat split; congruence. Qed.
Lemma quiet_misc : forall n, quiet (parseMisc E S H n).
Proof.
  induction n as [|n IH]; cbn [parseMisc]; [intros s a s' Hm; discriminate|]. apply quiet_bind; [auto with quiet|]. intros d. destruct d; [auto with quiet|]. intros s a s' Hm. cbv zeta in Hm. revert Hm.
  match goal with |- ?m s = _ -> _ => assert (Hf : quiet m); [|apply Hf] end. qt.
Qed.

Lemma document_accepted : forall n h bytes s', Parse E S H n h bytes = (Ret tt, s') -> ~ no_doctype (map fst (tr s')) ->
  exists detected text hdr rest ver enc sa c m t after e1 devs given later,
    marked bytes detected text /\ text = hdr ++ rest /\
    ((hdr = [] /\ enc = None /\ sa = None /\ ver = [] /\ has_prefix (s_ "<?xml") rest = false) \/ lheader all hdr ver enc sa) /\
    Load (lower E) (match enc with Some e => e | None => detected end) = Some c /\
    decode E c rest = m ++ t ++ after /\ lmisc all E m e1 /\ doctype_text E (truthful H) t devs /\
    some_of given (first_defaults [] (att_decls devs)) /\ (creates H -> given = first_defaults [] (att_decls devs)) /\
    bbody E (truthful H) (normalised (att_decls devs)) (added given) after later /\
    rev (map fst (tr s')) = ESetDocumentLocator :: EStartDocument :: e1 ++ devs ++ later ++ [EEndDocument].
Proof.
  intros n h bytes s' Hm Hno. unfold Parse, parseDocument in Hm.
  apply bind_inv in Hm as ([] & s1 & H1 & Hm). pose proof H1 as Q1. assert (Hs1 : encoding s1 = []) by (apply wrap_inv in H1; unfold emit_raw in H1; destruct (h_event _ _ _ _) as [? []]; inversion H1; reflexivity).
  apply emit_tells in H1 as (Hi1 & T1 & _). cbn [inp init app] in Hi1.
  apply bind_inv in Hm as (det & s2 & H2 & Hm).
  assert (Hdet : exists text, marked bytes det text /\ s2 = set_inp S text s1).
  { cbv beta in H2. rewrite <- Hi1 in H2. pose proof (detect_marked bytes) as Hd. destruct (detectEncoding bytes) as [[enc r]|]; inversion H2; subst; eexists; (split; [exact Hd|]); auto.
    symmetry. apply set_inp_self. }
  destruct Hdet as (text & Hmark & ->). clear H2.
  apply bind_inv in Hm as (dn & s2 & H2 & Hm). inversion H2; subst dn s2. clear H2. cbn [inp set_inp] in Hm. destruct (done text); [discriminate|].
  apply bind_inv in Hm as (dl & s2 & H2 & Hm). apply mhas_form in H2 as [-> ->]. cbn [inp set_inp] in Hm.
  apply bind_inv in Hm as ([] & s2 & H2 & Hm). apply bind_inv in Hm as ([] & s3 & H3 & Hm). apply wrap_inv in H3. pose proof H2 as Q2.
  apply bind_inv in Hm as ([] & s4 & H4 & Hm). pose proof H4 as Q4.
  assert (Hhdr : exists hdr rest enc sa ver, text = hdr ++ rest /\ ((hdr = [] /\ enc = None /\ sa = None /\ ver = [] /\ has_prefix (s_ "<?xml") rest = false) \/ lheader all hdr ver enc sa) /\
    inp s2 = rest /\ tr s2 = tr s1 /\ encoding s2 = text_of enc).
  { destruct (has_prefix (s_ "<?xml") text) eqn:Hp.
    - apply bind_inv in H2 as (x & s5 & H5 & H2). apply lift_inv in H5 as (l & H5 & ->). apply pwrap_inv in H5. cbn [inp set_inp] in H5.
      apply (xmldecl_form E OK NC OV) in H5 as (hdr & enc & sa & Ht & Hhd & He & Hs). inversion H2; subst s2. exists hdr, l, enc, sa, (xd_version x).
      split; [auto|]. split; [auto|]. cbn [inp tr encoding set_decl set_inp]. auto.
    - inversion H2; subst s2. exists [], text, None, None, []. split; [auto|]. split; [left; auto|]. cbn [inp tr encoding set_inp text_of]. auto. }
  destruct Hhdr as (hdr & rest & enc & sa & ver & Ht & Hhd & Hi2 & T2 & He2).
  unfold switchEncoding in H3. rewrite He2, Hi2 in H3.
  assert (Henc : match text_of enc with [] => det | e => e end = match enc with Some e => e | None => det end).
  { destruct enc as [e|]; [|reflexivity]. cbn [text_of]. destruct Hhd as [(_ & Hx & _)|Hhd]; [discriminate|].
    assert (He : enc_name e) by (inversion Hhd as [h0 v0 e0 sa0 Hx|? ? ? ? ? ? ? ? Hx|? ? ? ? ? ? ? ? ? ? ? Hx|]; subst; auto; inversion Hx; subst; tauto).
    destruct He as (a & r & -> & _). reflexivity. }
  rewrite Henc in H3. destruct (Load (lower E) (match enc with Some e => e | None => det end)) as [cd|] eqn:Hload; [|discriminate]. inversion H3; subst s3. clear H3.
  apply emit_tells in H4 as (Hi4 & T4 & _). cbn [inp tr set_inp app rev] in Hi4, T4. rewrite T2, T1 in T4. cbn [rev app tr init map] in T4.
  apply bind_inv in Hm as ([] & s5 & H5 & Hm). apply wrap_inv in H5. pose proof H5 as Q5. pose proof (adds_misc E S H n _ _ _ H5) as (l5 & L5 & P5). apply (misc_tells E OK NC OV) in H5.
  apply bind_inv in Hm as (dt & s6 & H6 & Hm). apply mhas_form in H6 as [-> ->]. apply bind_inv in Hm as (u7 & s7 & H7 & Hm). pose proof Hm as HE. apply (adds_end E S H n) in Hm as (l8 & L8 & P8).
  assert (K5 : nsTab s5 = [] /\ attsSpecial s5 = [] /\ attsDefault s5 = [] /\ att_decls (told s5) = []).
  { eapply init_quiet; [apply quiet_misc|exact Q5|]. eapply init_quiet; [apply quiet_emit|exact Q4|]; [exact I|]. cbn [nsTab attsSpecial attsDefault set_inp].
    assert (K1 : nsTab s1 = [] /\ attsSpecial s1 = [] /\ attsDefault s1 = [] /\ att_decls (told s1) = []).
    { eapply init_quiet; [apply quiet_emit|exact Q1|]; [exact I|]. repeat split. }
    change (nsTab s2 = [] /\ attsSpecial s2 = [] /\ attsDefault s2 = [] /\ att_decls (told s2) = []).
    eapply init_quiet; [|exact Q2|exact K1]. clear. qt. }
  destruct (has_prefix (s_ "<!DOCTYPE") (inp s5)) eqn:Hdt.
  - destruct H5 as [H5|(m & e1 & (T5 & V5 & _) & Hmi)]; [rewrite H5 in Hdt; discriminate|].
    destruct K5 as (K51 & K52 & K53 & K54).
    apply dtd_fills in H7 as (t & devs & sm & given & Ht7 & L7 & Hd & Ns & Ty & Gv & Gc & Df & H7); [|auto|auto|auto|auto].
    assert (HB : bind S (wrap S (parseMisc E S H n)) (fun _ => body_end E S H n) sm = (Ret tt, s')) by (unfold bind at 1; rewrite H7; exact HE).
    apply (body_tells E OK NC OV S H (normalised (att_decls devs)) (added given) (attsSpecial sm) (attsDefault sm)) in HB as (after & later & (Ti & Tt & _) & Hend & Hbb); [|..].
    + exists det, text, hdr, rest, ver, enc, sa, cd, m, t, after, e1, devs, given, later.
      do 4 (split; [auto|]). split; [rewrite Hi4, T5, Ht7, Ti, Hend, app_nil_r; auto|]. do 5 (split; [auto|]).
      rewrite Tt, L7, V5, T4. repeat (rewrite ?rev_app_distr, ?rev_involutive, <- ?app_assoc; cbn [rev app]). reflexivity.
    + intros el a. unfold normalised. rewrite Ty. change (special_key el a) with (label el a). destruct (typed (att_decls devs) (label el a)) as [ty|]; [|reflexivity]. destruct (ty =? AttrCDATA); cbn [negb andb]; reflexivity.
    + intros nm. rewrite Df, added_is. apply Permutation_refl.
    + split; reflexivity.
    + exact Ns.
  - exfalso. inversion H7; subst s7. apply Hno. intros name p u0 Hin. rewrite L8, L5, T4 in Hin.
    assert (Hall : plain_events (rev l8 ++ rev l5 ++ [EStartDocument; ESetDocumentLocator])) by (apply Forall_app; split; [apply Forall_rev; auto|]; apply Forall_app; split; [apply Forall_rev; auto|]; repeat (constructor; [reflexivity|]); constructor).
    unfold plain_events in Hall. rewrite Forall_forall in Hall. apply Hall in Hin. discriminate.
Qed.
End S.
