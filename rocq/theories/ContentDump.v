(* Content models: what the serialiser writes for a model that was read. *)
From Verif Require Import Base Utf8 Utf8Proofs Escape XmlSpec Scan ScanProofs LexProofs Heap Dump DtdProofs DtdHistory.
From Verif Require Import Grammar TextProofs Complete Content ContentProofs.
Local Open Scope Z_scope.

Definition merge (o k : occ) : occ :=
  match o with Opt => match k with Plus => Mult | _ => Opt end | _ => k end.
(* the expression written: groups of one dropped, a group at the end of a group
   with the same separator merged into it *)
Fixpoint norm (c : cp) : cp :=
  match c with
  | Name p l o => Name p l o
  | Group sep l o =>
      match l with
      | One (Name p n k) => Name p n (merge o k)
      | _ => Group sep (norms sep l) o
      end
  end
with norms (sep : Z) (l : cps) : cps :=
  match l with
  | One c => match norm c with
             | Group sep' l' Once => if sep' =? sep then l' else One (Group sep' l' Once)
             | c' => One c'
             end
  | More c r => More (norm c) (norms sep r)
  end.
Fixpoint show (c : cp) : list Z :=
  match c with
  | Name p l o => qname p l ++ sign o
  | Group sep l o => [40] ++ shows sep l ++ [41] ++ sign o
  end
with shows (sep : Z) (l : cps) : list Z :=
  match l with
  | One c => show c
  | More c r => show c ++ [32; sep; 32] ++ shows sep r
  end.
Lemma show_text : (forall c, text c (show c)) /\ (forall l sep a, blanks a -> texts sep l (a ++ shows sep l)).
Proof.
  apply cp_both.
  - intros p l o. constructor.
  - intros sep l IH o. cbn [show]. constructor. apply (IH sep []). constructor.
  - intros c IH sep a Ha. cbn [shows]. rewrite <- (app_nil_r (show c)). constructor; [assumption|assumption|constructor].
  - intros c IHc r IHr sep a Ha. cbn [shows]. change ([32; sep; 32] ++ shows sep r) with ([32] ++ [sep] ++ [32] ++ shows sep r).
    constructor; [assumption|assumption|repeat constructor|]. apply IHr. repeat constructor.
Qed.

Definition is_op (e : econt) : bool := (ec_type e =? ctOr) || (ec_type e =? ctSeq).
Definition inner (sep : Z) (b : econt) : bool :=
  if sep =? 124 then (ec_type b =? ctSeq) || ((ec_type b =? ctOr) && negb (ec_occur b =? ocOnce))
  else (ec_type b =? ctOr) || ((ec_type b =? ctSeq) && negb (ec_occur b =? ocOnce)).
Definition wrapped (glob : bool) (s : str) : str := (if glob then s_ "(" else []) ++ s ++ (if glob then s_ ")" else []).
Lemma dump_name : forall p l o glob, dumpElementContent (EC ctElement (code o) (utf8 l) (utf8 p) None None) glob =
  Ret (wrapped glob (utf8 (qname p l)) ++ sign o).
Proof.
  intros p l o glob. cbn [dumpElementContent]. change (ctElement =? ctPCDATA) with false. change (ctElement =? ctElement) with true. cbv iota.
  cbn [obind]. rewrite prefixed_qname. unfold wrapped. rewrite <- !app_assoc. destruct o; reflexivity.
Qed.
Lemma dump_op : forall sep a b x y o glob, sep = 44 \/ sep = 124 -> dumpElementContent a (is_op a) = Ret x -> dumpElementContent b (inner sep b) = Ret y ->
  dumpElementContent (EC (op sep) (code o) [] [] (Some a) (Some b)) glob = Ret (wrapped glob (x ++ [32; sep; 32] ++ y) ++ sign o).
Proof.
  intros sep a b x y o glob Hs Ha Hb. unfold is_op in Ha.
  destruct Hs as [->| ->]; unfold inner in Hb; cbn [dumpElementContent].
  - change (op 44 =? ctPCDATA) with false. change (op 44 =? ctElement) with false. change (op 44 =? ctSeq) with true. cbv iota.
    change (44 =? 124) with false in Hb. cbv iota in Hb. rewrite Ha. cbn [obind]. rewrite Hb. cbn [obind].
    unfold wrapped. rewrite <- !app_assoc. destruct o; reflexivity.
  - change (op 124 =? ctPCDATA) with false. change (op 124 =? ctElement) with false. change (op 124 =? ctSeq) with false. change (op 124 =? ctOr) with true. cbv iota.
    change (124 =? 124) with true in Hb. cbv iota in Hb. rewrite Ha. cbn [obind]. rewrite Hb. cbn [obind].
    unfold wrapped. rewrite <- !app_assoc. destruct o; reflexivity.
Qed.
Lemma op_is_op : forall sep o a b, sep = 44 \/ sep = 124 -> is_op (EC (op sep) o [] [] a b) = true.
Proof. intros sep o a b [->| ->]; reflexivity. Qed.

Section Env.
Variable E : env.

Lemma fits_mono : (forall c d d', (d <= d')%nat -> fits E d c -> fits E d' c) /\ (forall l d d', (d <= d')%nat -> allfit E d l -> allfit E d' l).
Proof.
  apply cp_both.
  - intros p l o d d' H F. exact F.
  - intros sep l IH o [|d] [|d'] H F; try (destruct F; fail); [lia|]. destruct F as (A & B & C & D & G).
    refine (conj A (conj B (conj C (conj D _)))). apply (IH d); [lia|exact G].
  - intros c IH d d' H F. exact (IH d d' H F).
  - intros c IHc r IHr d d' H [F G]. exact (conj (IHc d d' H F) (IHr d d' H G)).
Qed.
Definition joins (l : cps) : Prop := exists c r, l = More c r.
Lemma norm_view : forall c d, fits E d c -> (exists p l k, norm c = Name p l k) \/ (exists sep l o, norm c = Group sep l o /\ joins l /\ (sep = 44 \/ sep = 124) /\ (o = Once \/ o = Opt)).
Proof.
  intros [p l o|sep l o] d F; [left; exists p, l, o; reflexivity|]. destruct d as [|d]; [destruct F|]. destruct F as (Hs & Ho & (p & q & k & Hf) & Hm & Fl).
  destruct l as [c|c r]; cbn [first] in Hf; subst c; cbn [norm]; [left; exists p, q, (merge o k); reflexivity|right].
  exists sep, (norms sep (More (Name p q k) r)), o. refine (conj eq_refl (conj _ (conj Hs Ho))). eexists. eexists. reflexivity.
Qed.
Lemma norm_model : (forall c d, fits E d c -> model (norm c) = model c) /\
  (forall l sep d, sep = 44 \/ sep = 124 -> allfit E d l -> models sep (norms sep l) = models sep l).
Proof.
  apply cp_both.
  - reflexivity.
  - intros sep l IH o [|d] F; [destruct F|]. destruct F as (Hs & Ho & (p & q & k & Hf) & Hm & Fl). specialize (IH sep d Hs Fl).
    destruct l as [c|c r]; cbn [first] in Hf; subst c.
    + cbn [norm model models]. destruct Ho as [->| ->]; [destruct k; reflexivity|]. destruct k; try reflexivity.
    + change (norm (Group sep (More (Name p q k) r) o)) with (Group sep (norms sep (More (Name p q k) r)) o). cbn [model]. rewrite IH. reflexivity.
  - intros c IH sep d Hs F. specialize (IH d F). cbn [norms models]. rewrite <- IH.
    destruct (norm c) as [p l k|sep' l' [| | |]]; try reflexivity. destruct (Z.eqb_spec sep' sep) as [->|]; reflexivity.
  - intros c IHc r IHr sep d Hs [F G]. cbn [norms models]. rewrite (IHc d F), (IHr sep d Hs G). reflexivity.
Qed.
Lemma norm_fits : (forall c d, fits E d c -> fits E d (norm c)) /\
  (forall l sep d, allfit E d l -> allfit E d (norms sep l)).
Proof.
  apply cp_both.
  - auto.
  - intros sep l IH o [|d] F; [destruct F|]. destruct F as (Hs & Ho & (p & q & k & Hf) & Hm & Fl). specialize (IH sep d Fl).
    destruct l as [c|c r]; cbn [first] in Hf; subst c.
    + cbn [norm]. exact Fl.
    + change (norm (Group sep (More (Name p q k) r) o)) with (Group sep (norms sep (More (Name p q k) r)) o).
      refine (conj Hs (conj Ho (conj _ (conj _ IH)))); [eexists; eexists; eexists; reflexivity|intros _ ? ?; discriminate].
  - intros c IH sep d F. specialize (IH d F). cbn [norms].
    destruct (norm c) as [p l k|sep' l' [| | |]]; try exact IH. destruct (Z.eqb_spec sep' sep) as [->|]; [|exact IH].
    destruct d as [|d]; [destruct IH|]. destruct IH as (_ & _ & _ & _ & G). apply (proj2 fits_mono l' d); [lia|exact G].
  - intros c IHc r IHr sep d [F G]. exact (conj (IHc d F) (IHr sep d G)).
Qed.

Lemma dump_all : (forall c d, fits E d c -> forall e, e = model c ->
     dumpElementContent e (is_op e) = Ret (utf8 (show (norm c))) /\
     (forall sep l o, norm c = Group sep l o -> (sep = 44 \/ sep = 124) /\
        (exists a b, e = EC (op sep) (code o) [] [] a b) /\
        forall glob, dumpElementContent e glob = Ret (wrapped glob (utf8 (shows sep l)) ++ sign o))) /\
  (forall l sep d, sep = 44 \/ sep = 124 -> allfit E d l ->
     dumpElementContent (models sep l) (inner sep (models sep l)) = Ret (utf8 (shows sep (norms sep l))) /\
     (joins l -> forall o glob, dumpElementContent (set_occur (code o) (models sep l)) glob = Ret (wrapped glob (utf8 (shows sep (norms sep l))) ++ sign o))).
Proof.
  assert (SG : forall o, utf8 (sign o) = sign o) by (intros []; reflexivity).
  apply cp_both.
  - intros p l o d F e ->. split; [|discriminate]. cbn [model is_op norm show]. change (is_op (EC ctElement (code o) (utf8 l) (utf8 p) None None)) with false.
    rewrite dump_name. unfold wrapped. rewrite app_nil_r. rewrite utf8_app, SG. reflexivity.
  - intros sep l IH o [|d] F e ->; [destruct F|]. destruct F as (Hs & Ho & (p & q & k & Hf) & Hm & Fl).
    destruct (IH sep d Hs Fl) as [_ IH2]. destruct l as [c|c r]; cbn [first] in Hf; subst c.
    + assert (X : model (Group sep (One (Name p q k)) o) = EC ctElement (code (merge o k)) (utf8 q) (utf8 p) None None).
      { destruct Ho as [->| ->]; [reflexivity|]. destruct k; reflexivity. }
      split; [|discriminate]. rewrite X. cbn [norm show]. change (is_op (EC ctElement (code (merge o k)) (utf8 q) (utf8 p) None None)) with false.
      rewrite dump_name. unfold wrapped. rewrite app_nil_r. rewrite utf8_app, SG. reflexivity.
    + set (m := More (Name p q k) r) in *. assert (J : joins m) by (eexists; eexists; reflexivity). specialize (IH2 J o).
      assert (X : model (Group sep m o) = set_occur (code o) (models sep m)) by (destruct Ho as [->| ->]; reflexivity).
      assert (Y : norm (Group sep m o) = Group sep (norms sep m) o) by reflexivity. rewrite X, Y. split.
      * assert (Z0 : is_op (set_occur (code o) (models sep m)) = true) by (apply op_is_op; exact Hs). rewrite Z0, IH2.
        unfold wrapped. cbn [show]. rewrite !utf8_app, SG. rewrite <- !app_assoc. reflexivity.
      * intros sep0 l0 o0 H0. injection H0 as <- <- <-. split; [exact Hs|]. split; [|exact IH2]. eexists. eexists. reflexivity.
  - intros c IH sep d Hs F. split; [|intros (? & ? & X); discriminate]. specialize (IH d F _ eq_refl) as [IH1 IH2]. cbn [models norms].
    destruct (norm_view c d F) as [(p & l & k & En)|(sep' & l' & o & En & J & Hs' & Ho)].
    + assert (X : model c = EC ctElement (code k) (utf8 l) (utf8 p) None None) by (rewrite <- (proj1 norm_model c d F), En; reflexivity).
      rewrite En in *. cbn [shows]. rewrite X in *. unfold inner. cbn [ec_type]. destruct (sep =? 124); exact IH1.
    + destruct (IH2 _ _ _ En) as (_ & (a & b & X) & R). rewrite En. rewrite R. rewrite X.
      assert (XI : inner sep (EC (op sep') (code o) [] [] a b) = negb ((sep' =? sep) && match o with Once => true | _ => false end)).
      { destruct Hs as [->| ->], Hs' as [->| ->]; destruct Ho as [->| ->]; reflexivity. }
      rewrite XI. assert (G : Ret (wrapped true (utf8 (shows sep' l')) ++ sign o) = Ret (utf8 (shows sep (One (Group sep' l' o)))) :> outcome herr str).
      { cbn [shows show]. unfold wrapped. rewrite !utf8_app, SG. rewrite <- !app_assoc. reflexivity. }
      destruct Ho as [->| ->]; [destruct (Z.eqb_spec sep' sep) as [->|]|]; cbn [andb negb]; try (rewrite andb_false_r; cbn [negb]); try exact G.
      unfold wrapped. cbn [app sign]. rewrite !app_nil_r. reflexivity.
  - intros c IHc r IHr sep d Hs [F G]. destruct (IHc d F _ eq_refl) as [IH1 _]. destruct (IHr sep d Hs G) as [IH2 _].
    assert (R : forall o glob, dumpElementContent (set_occur (code o) (models sep (More c r))) glob = Ret (wrapped glob (utf8 (shows sep (norms sep (More c r)))) ++ sign o)).
    { intros o glob. cbn [models set_occur norms shows]. rewrite (dump_op sep _ _ _ _ o glob Hs IH1 IH2). rewrite !utf8_app.
      replace (utf8 [32; sep; 32]) with [32; sep; 32] by (destruct Hs as [->| ->]; reflexivity). reflexivity. }
    split; [|intros _; exact R].
    specialize (R Once). change (set_occur (code Once) (models sep (More c r))) with (models sep (More c r)) in R. rewrite R.
    replace (inner sep (models sep (More c r))) with false by (destruct Hs as [->| ->]; reflexivity). unfold wrapped. cbn [app sign]. rewrite !app_nil_r. reflexivity.
Qed.

Hypothesis OK : env_ok E.
Lemma dump_root : forall sep l o, fits E max_nesting (Group sep l o) -> rereads (Children (Group sep l o)) ->
  exists sep' l' o', dumpElementContent (model (Group sep l o)) true = Ret (utf8 (show (Group sep' l' o'))) /\
    fits E max_nesting (Group sep' l' o') /\ model (Group sep' l' o') = model (Group sep l o).
Proof.
  intros sep l o F R. assert (SG : forall o, utf8 (sign o) = sign o) by (intros []; reflexivity).
  destruct (norm_view _ _ F) as [(p & q & k & En)|(sep' & l' & o' & En & J & Hs & Ho)].
  - assert (X : model (Group sep l o) = EC ctElement (code k) (utf8 q) (utf8 p) None None) by (rewrite <- (proj1 norm_model _ _ F), En; reflexivity).
    assert (Fn : fits E max_nesting (Name p q k)) by (rewrite <- En; apply (proj1 norm_fits), F).
    assert (K : k = Once \/ k = Opt).
    { destruct F as (Hs & Ho & (p' & q' & k' & Hf) & Hm & Fl). destruct l as [c|c r]; cbn [first] in Hf; subst c; [|discriminate En].
      cbn [norm] in En. injection En as -> -> <-. cbn [rereads] in R. destruct Ho as [->| ->]; [exact R|]. destruct R as [->| ->]; right; reflexivity. }
    exists 44, (One (Name p q Once)), k. rewrite X, dump_name. split; [|split].
    + cbn [show shows]. unfold wrapped. rewrite !utf8_app, !SG. change (sign Once) with (@nil Z). rewrite app_nil_r, <- !app_assoc. reflexivity.
    + refine (conj _ (conj K (conj _ (conj _ Fn)))); [auto|do 3 eexists; reflexivity|intros _ ? ?; discriminate].
    + destruct K as [->| ->]; reflexivity.
  - exists sep', l', o'. destruct (proj1 (dump_all) _ _ F _ eq_refl) as [_ D]. destruct (D _ _ _ En) as (_ & _ & D').
    rewrite D'. split; [|split].
    + cbn [show]. unfold wrapped. rewrite !utf8_app, SG, <- !app_assoc. reflexivity.
    + rewrite <- En. apply (proj1 norm_fits), F.
    + rewrite <- En. apply (proj1 norm_model _ _ F).
Qed.
Theorem dump_decl : forall p l s, spec_fits E s -> rereads s -> (exists t, spec_text s t) ->
  exists t s', dumpElementDecl (utf8 l) (utf8 p) (spec_type s) (spec_model s) = Ret (utf8 t ++ [10]) /\
    decl_text p l s' t /\ spec_fits E s' /\ spec_type s' = spec_type s /\ spec_model s' = spec_model s.
Proof.
  intros p l s F R T.
  assert (A : forall s' t, spec_text s' t -> decl_text p l s' (s_ "<!ELEMENT" ++ [32] ++ qname p l ++ [32] ++ t ++ [] ++ [62])).
  { intros s' t H. constructor; try discriminate; try assumption; repeat constructor. }
  assert (B : forall t, utf8 (s_ "<!ELEMENT" ++ [32] ++ qname p l ++ [32] ++ t ++ [] ++ [62]) = s_ "<!ELEMENT " ++ utf8 (qname p l) ++ [32] ++ utf8 t ++ [62]).
  { intros t. rewrite !utf8_app. reflexivity. }
  destruct s as [| |st| |c]; [| | |destruct R|].
  - exists (s_ "<!ELEMENT" ++ [32] ++ qname p l ++ [32] ++ s_ "EMPTY" ++ [] ++ [62]), Empty. split; [|split; [apply A; constructor|auto]].
    rewrite B. unfold dumpElementDecl, spec_type. rewrite prefixed_qname, <- !app_assoc. reflexivity.
  - exists (s_ "<!ELEMENT" ++ [32] ++ qname p l ++ [32] ++ s_ "ANY" ++ [] ++ [62]), Any. split; [|split; [apply A; constructor|auto]].
    rewrite B. unfold dumpElementDecl, spec_type. rewrite prefixed_qname, <- !app_assoc. reflexivity.
  - exists (s_ "<!ELEMENT" ++ [32] ++ qname p l ++ [32] ++ ([40] ++ [] ++ s_ "#PCDATA" ++ [41] ++ if st then [42] else []) ++ [] ++ [62]), (Text st).
    split; [|split; [apply A; constructor; constructor|auto]].
    rewrite B. unfold dumpElementDecl, spec_type. rewrite prefixed_qname, <- !app_assoc. destruct st; reflexivity.
  - destruct T as [t T]. inversion T as [| | | |sep m o ? Tu]; subst.
    destruct (dump_root sep m o F R) as (sep' & m' & o' & D & F' & M).
    exists (s_ "<!ELEMENT" ++ [32] ++ qname p l ++ [32] ++ show (Group sep' m' o') ++ [] ++ [62]), (Children (Group sep' m' o')).
    split; [|split; [apply A; constructor; apply (proj1 show_text)|]].
    + rewrite B. unfold dumpElementDecl. cbn [spec_type spec_model].
      change (ElementElementType =? EmptyElementType) with false. change (ElementElementType =? AnyElementType) with false.
      change ((ElementElementType =? MixedElementType) || (ElementElementType =? ElementElementType)) with true. cbv iota.
      rewrite D. cbn [obind]. rewrite prefixed_qname, <- !app_assoc. reflexivity.
    + split; [exact F'|]. split; [reflexivity|]. cbn [spec_model]. rewrite M. reflexivity.
Qed.

Theorem declared : forall p l s t, decl_text p l s t -> qnamed E p l -> Z.of_nat (List.length (qname p l)) <= 50000 -> spec_fits E s ->
  exists typ m,
    (forall n after, (List.length t <= n)%nat -> scanElementDecl E n (t ++ after) = (Ret (utf8 (qname p l), typ, m), after)) /\
    (forall w, stored_lang typ m w <-> spec_lang s w) /\
    (rereads s -> exists t', dumpElementDecl (utf8 l) (utf8 p) typ m = Ret (utf8 t' ++ [10]) /\
       forall n after, (List.length t' <= n)%nat -> scanElementDecl E n (t' ++ after) = (Ret (utf8 (qname p l), typ, m), after)).
Proof.
  intros p l s t T Q L F. exists (spec_type s), (spec_model s). split; [|split].
  - intros n after. apply scan_decl; [exact OK|exact T|split; assumption|exact F].
  - apply (spec_stored E), F.
  - intros R. destruct T as [a b t c _ _ _ _ T _].
    destruct (dump_decl p l s F R (ex_intro _ t T)) as (t' & s' & D & T' & F' & X & Y). exists t'. split; [exact D|]. rewrite <- X, <- Y.
    intros n after. apply scan_decl; [exact OK|exact T'|split; assumption|exact F'].
Qed.
End Env.
