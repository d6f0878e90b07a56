(* What the functions of Parser.v may do to the trace, for every handler: a
   small effect system.  [eff T m] says that the events m delivers satisfy T,
   that a callback which failed is the last one made, and that the stack of
   open elements is restored on return. *)
From Verif Require Import Base Utf8 Encoding Scan ScanProofs Parser.

Definition okr (p : event * hres) : bool := match snd p with HNil | HUnspec => true | _ => false end.

(* how the outcome reflects the answers of the callbacks (newest first) *)
Definition resp {A} (o : outcome gerr A) (evs : list (event * hres)) : Prop :=
  (forallb okr evs = true /\ lexical o) \/
  (exists e k rest, evs = (e, HError k) :: rest /\ forallb okr rest = true /\
     (o = Fail (HErr k) \/ o = Fail (PErr (HErr k)))) \/
  (exists e rest, evs = (e, HPanic) :: rest /\ forallb okr rest = true /\ o = Pan).

Definition isret {A} (o : outcome gerr A) : bool := match o with Ret _ => true | _ => false end.

Definition tkind := Z -> bool -> list event -> Prop.
Definition closed (T : tkind) : Prop :=
  (forall i b, T i b []) /\ (forall i b e1 e2, T i true e1 -> T i b e2 -> T i b (e2 ++ e1)).

Section Eff.
Variable E : env.
Variable S : Type.
Variable H : handler S.
Notation pst := (pst S).
Notation M := (M S).

Definition frame (s s' : pst) : Prop :=
  nodeTab s' = nodeTab s /\ depth s' = depth s /\ inSubset s' = inSubset s /\
  version s' = version s /\ encoding s' = encoding s /\ standalone s' = standalone s.

Lemma frame_refl : forall s, frame s s. Proof. intros; repeat split. Qed.
Lemma frame_trans : forall a b c, frame a b -> frame b c -> frame a c.
Proof. intros a b c (A1&A2&A3&A4&A5&A6) (B1&B2&B3&B4&B5&B6); repeat split; congruence. Qed.

Definition eff (T : tkind) {A} (m : M A) : Prop := forall s, exists evs,
  tr (snd (m s)) = evs ++ tr s /\
  T (inSubset s) (isret (fst (m s))) (map fst evs) /\
  resp (fst (m s)) evs /\
  (isret (fst (m s)) = true -> frame s (snd (m s))).

Lemma eff_weaken : forall (T T' : tkind) A (m : M A),
  (forall i b evs, T i b evs -> T' i b evs) -> eff T m -> eff T' m.
Proof. intros T T' A m HT Hm s. destruct (Hm s) as (evs & H1 & H2 & H3 & H4). exists evs; auto. Qed.

Lemma resp_ok : forall A (o : outcome gerr A), lexical o -> resp o [].
Proof. intros; left; auto. Qed.

Section T.
Variable T : tkind.
Hypothesis TC : closed T.

Lemma eff_quiet : forall A (m : M A),
  (forall s, tr (snd (m s)) = tr s) -> (forall s, lexical (fst (m s))) -> (forall s, frame s (snd (m s))) -> eff T m.
Proof.
  intros A m H1 H2 H3 s. exists []. rewrite H1. repeat split; auto.
  - apply TC. - apply resp_ok; auto. - apply H3. - apply H3. - apply H3. - apply H3. - apply H3. - apply H3.
Qed.
Lemma eff_ret : forall A (a : A), eff T (ret _ a).
Proof. intros; apply eff_quiet; intros; simpl; auto using frame_refl. Qed.
Lemma eff_fail : forall A e, nohandler e = true -> eff T (@fail _ A e).
Proof. intros; apply eff_quiet; intros; simpl; auto using frame_refl. Qed.
Lemma eff_failw : forall A k, eff T (@failw _ A k).
Proof. intros; apply eff_quiet; intros; simpl; auto using frame_refl. Qed.
Lemma eff_pan : forall A, eff T (@pan _ A).
Proof. intros; apply eff_quiet; intros; simpl; auto using frame_refl. Qed.
Lemma eff_oof : forall A, eff T (@oof _ A).
Proof. intros; apply eff_quiet; intros; simpl; auto using frame_refl. Qed.
Lemma eff_get : forall A (f : pst -> A), eff T (get _ f).
Proof. intros; apply eff_quiet; intros; simpl; auto using frame_refl. Qed.
Lemma eff_mlift : forall A (o : outcome gerr A), lexical o -> eff T (mlift _ o).
Proof. intros; apply eff_quiet; intros; simpl; auto using frame_refl. Qed.
Lemma eff_modify : forall f, (forall s, tr (f s) = tr s) -> (forall s, frame s (f s)) -> eff T (modify _ f).
Proof. intros; apply eff_quiet; intros; simpl; auto. Qed.
Lemma frame_inp : forall s l, frame s (set_inp _ l s). Proof. intros; repeat split. Qed.
Lemma frame_hs : forall s l, frame s (set_hs _ l s). Proof. intros; repeat split. Qed.
Lemma eff_lift : forall A (p : P A), plex p -> eff T (lift _ p).
Proof.
  intros A p Hp; apply eff_quiet; intros s; unfold lift; specialize (Hp (inp s)); destruct (p (inp s)) as [o l];
    simpl in *; auto using frame_inp.
Qed.
Lemma eff_queryE : forall n, eff T (queryEntity _ H n).
Proof.
  intros n; apply eff_quiet; intros s; unfold queryEntity; destruct (h_getEntity _ _ _ _) as [h [e b|]]; simpl; auto using frame_hs.
Qed.
Lemma eff_queryP : forall n, eff T (queryPEntity _ H n).
Proof.
  intros n; apply eff_quiet; intros s; unfold queryPEntity; destruct (h_getPEntity _ _ _ _) as [h [e b|]]; simpl; auto using frame_hs.
Qed.
Lemma eff_getEntity : forall n, eff T (getEntity _ H n).
Proof.
  intros n; apply eff_quiet; intros s; unfold getEntity; destruct (inSubset s =? 0); simpl; auto using frame_refl;
  destruct (h_docEntity _ _ _); simpl; auto using frame_refl.
Qed.
Lemma eff_areBlanks : forall t, eff T (areBlanks E _ H t).
Proof. intros; apply eff_quiet; intros; simpl; auto using frame_refl. Qed.

Lemma eff_emit_raw : forall e, (forall i b, T i b [e]) -> eff T (emit_raw _ H e).
Proof.
  intros e He s. unfold emit_raw. destruct (h_event H (hs s) (the_view S s) e) as [h' r].
  exists [(e, r)]. destruct r; simpl; repeat split; auto; try (left; split; [reflexivity | exact I]); try discriminate.
  - right; left. exists e, k, []; auto.
  - right; right. exists e, []; auto.
Qed.

Lemma eff_wrap : forall A (m : M A), eff T m -> eff T (wrap _ m).
Proof.
  intros A m Hm s. destruct (Hm s) as (evs & H1 & H2 & H3 & H4). exists evs. unfold wrap.
  destruct (m s) as [[a|e| |] s']; simpl in *; repeat split; auto; try (apply H4; auto); try discriminate.
  destruct H3 as [[G1 G2]|[(e0&k&rest&G1&G2&G3)|(e0&rest&G1&G2&G3)]]; [left|right;left|discriminate].
  - split; auto. simpl in *. apply nohandler_ctx; auto.
  - exists e0, k, rest; repeat split; auto. right. destruct G3 as [G3|G3]; inversion G3; reflexivity.
Qed.
Lemma eff_emit : forall e, (forall i b, T i b [e]) -> eff T (emit _ H e).
Proof. intros; apply eff_wrap, eff_emit_raw; auto. Qed.

Lemma resp_ret_ok : forall A (a : A) evs, resp (Ret a) evs -> forallb okr evs = true.
Proof.
  intros A a evs [[G1 G2]|[(e0&k&rest&G1&G2&[G3|G3])|(e0&rest&G1&G2&G3)]]; auto; discriminate.
Qed.
Lemma resp_app : forall A (o : outcome gerr A) e2 e1, forallb okr e1 = true -> resp o e2 -> resp o (e2 ++ e1).
Proof.
  intros A o e2 e1 H1 [[G1 G2]|[(e0&k&rest&G1&G2&G3)|(e0&rest&G1&G2&G3)]].
  - left; split; auto. rewrite forallb_app, G1, H1; auto.
  - right; left. exists e0, k, (rest ++ e1). subst; repeat split; auto. rewrite forallb_app, G2, H1; auto.
  - right; right. exists e0, (rest ++ e1). subst; repeat split; auto. rewrite forallb_app, G2, H1; auto.
Qed.
Lemma resp_cast : forall A B (o : outcome gerr A) (o' : outcome gerr B) evs,
  (match o, o' with Fail e, Fail e' => e = e' | Pan, Pan => True | Oof, Oof => True | _, _ => False end) ->
  resp o evs -> resp o' evs.
Proof.
  intros A B o o' evs Hc [[G1 G2]|[(e0&k&rest&G1&G2&G3)|(e0&rest&G1&G2&G3)]].
  - left; split; auto. destruct o, o'; try tauto; simpl in *; subst; auto.
  - right; left. exists e0, k, rest; split; auto; split; auto.
    destruct o, o'; try tauto; destruct G3 as [G3|G3]; try discriminate; subst; inversion G3; subst; auto.
  - right; right. exists e0, rest; split; auto; split; auto. subst o; destruct o'; tauto.
Qed.

Lemma eff_bind : forall A B (m : M A) (f : A -> M B), eff T m -> (forall a, eff T (f a)) -> eff T (bind _ m f).
Proof.
  intros A B m f Hm Hf s. destruct (Hm s) as (evs & H1 & H2 & H3 & H4). unfold bind.
  destruct (m s) as [[a|e| |] s1]; cbn [fst snd isret] in *.
  - destruct (Hf a s1) as (evs2 & G1 & G2 & G3 & G4). specialize (H4 eq_refl).
    exists (evs2 ++ evs). rewrite G1, H1, app_assoc, map_app.
    refine (conj eq_refl (conj _ (conj _ _))).
    + apply TC; auto. destruct H4 as (_&_&H4&_). rewrite <- H4; auto.
    + apply resp_app; auto. eapply resp_ret_ok; eauto.
    + intros Hr. eapply frame_trans; eauto.
  - exists evs. refine (conj H1 (conj H2 (conj _ _))); [|discriminate]. eapply resp_cast; [|eauto]; simpl; auto.
  - exists evs. refine (conj H1 (conj H2 (conj _ _))); [|discriminate]. eapply resp_cast; [|eauto]; simpl; auto.
  - exists evs. refine (conj H1 (conj H2 (conj _ _))); [|discriminate]. eapply resp_cast; [|eauto]; simpl; auto.
Qed.
Lemma eff_always : forall A (m : M A) c, eff T m -> eff T (always _ m c).
Proof.
  intros A m c Hm s. destruct (Hm s) as (evs & H1 & H2 & H3 & H4). exists evs. unfold always.
  destruct (m s) as [[a|e| |] s']; cbn [fst snd isret tr set_inp] in *; repeat split; auto; try discriminate; apply H4; auto.
Qed.
End T.
End Eff.

Arguments eff {S} T {A} m.
Arguments frame {S}.
Create HintDb eff.
Global Hint Resolve eff_ret eff_failw eff_pan eff_oof eff_get eff_areBlanks eff_queryE eff_queryP eff_getEntity eff_wrap eff_always : eff.
Global Hint Extern 1 (eff _ (lift _ _)) => apply eff_lift; auto with scan : eff.
Global Hint Extern 1 (eff _ (fail _ _)) => apply eff_fail; [auto|reflexivity] : eff.
Global Hint Extern 2 (eff _ (mpeek _ _)) => apply eff_lift; auto with scan : eff.
Global Hint Extern 2 (eff _ (mpeekn _ _ _)) => apply eff_lift; auto with scan : eff.
Global Hint Extern 2 (eff _ (madvance _ _ _)) => apply eff_lift; auto with scan : eff.
Global Hint Extern 2 (eff _ (mhas _ _)) => apply eff_lift; auto with scan : eff.
Global Hint Extern 2 (eff _ (mconsume _ _)) => apply eff_lift; auto with scan : eff.
Global Hint Extern 2 (eff _ (mskip _)) => apply eff_lift; auto with scan : eff.
Global Hint Extern 2 (eff _ (mdone _)) => apply eff_get; auto : eff.

Ltac estep :=
  match goal with
  | |- forall _, _ => intro
  | |- eff _ (bind _ _ _) => apply eff_bind; [assumption| |]
  | |- eff _ (wrap _ _) => apply eff_wrap
  | |- eff _ (always _ _ _) => apply eff_always
  | |- eff _ (if ?b then _ else _) => destruct b
  | |- eff _ (let '(_, _) := ?x in _) => destruct x
  | |- eff _ (match ?x with _ => _ end) => destruct x
  | |- eff _ (let _ := _ in _) => cbv zeta
  end.
Ltac eauto_eff := repeat (first [ solve [eauto with eff] | estep ]).

(* ---- kinds of effects ---- *)
(* a lone Reference, after which the function does not return normally *)
Definition TQuiet : tkind := fun i b evs =>
  evs = [] \/ (b = false /\ i = 0 /\ exists n, evs = [EReference n]).
Definition TAll (K : event -> bool) : tkind := fun _ _ evs => forallb K evs = true.
Definition isMisc (e : event) : bool :=
  match e with EProcessingInstruction _ _ | EComment _ => true | _ => false end.
Definition isContent (e : event) : bool :=
  match e with
  | EProcessingInstruction _ _ | EComment _ | ECharacters _ | ECDataBlock _ | EIgnorableWhitespace _ | EReference _ => true
  | _ => false
  end.
Definition isDecl (e : event) : bool :=
  match e with
  | EProcessingInstruction _ _ | EComment _ | EEntityDecl _ _ _ _ _ | EElementDecl _ _ _ | EAttributeDecl _ _ _ _ _ _ => true
  | _ => false
  end.
(* declarations, in the internal subset only *)
Definition TDecl : tkind := fun i _ evs => i <> 0 -> forallb isDecl evs = true.

Lemma closed_quiet : closed TQuiet.
Proof.
  split; [left; auto|]. intros i b e1 e2 [->|(X&_)] H2; [|discriminate].
  rewrite app_nil_r; auto.
Qed.
Lemma closed_all : forall K, closed (TAll K).
Proof. split; [reflexivity|]. unfold TAll; intros. rewrite forallb_app, H, H0; auto. Qed.
Lemma closed_decl : closed TDecl.
Proof. unfold TDecl; split; [reflexivity|]. intros. rewrite forallb_app, H, H0; auto. Qed.
Global Hint Resolve closed_quiet closed_all closed_decl : eff.

(* ---- well-nested event sequences (specification) ---- *)
(* [nested stk evs]: reading evs from left to right with the elements of stk
   open; None when an end event does not close the innermost open element *)
Definition node_eqb (a b : node) : bool :=
  let '(l, p, u) := a in let '(l', p', u') := b in str_eqb l l' && str_eqb p p' && str_eqb u u'.
Fixpoint nested (stk : list node) (evs : list event) : option (list node) :=
  match evs with
  | [] => Some stk
  | EStartElement l p u _ _ :: t => nested ((l, p, u) :: stk) t
  | EEndElement l p u :: t =>
      match stk with
      | top :: rest => if node_eqb top (l, p, u) then nested rest t else None
      | [] => None
      end
  | e :: t => if isContent e then nested stk t else None
  end.

Lemma node_eqb_refl : forall n, node_eqb n n = true.
Proof. intros [[l p] u]. simpl. rewrite !str_eqb_refl; auto. Qed.
Lemma nested_app : forall a b stk, nested stk (a ++ b) = match nested stk a with Some s => nested s b | None => None end.
Proof.
  induction a as [|e a IH]; intros b stk; [reflexivity|].
  destruct e; cbn [nested app]; cbn [isContent]; auto.
  destruct stk; auto. destruct (node_eqb _ _); auto.
Qed.
Lemma nested_content : forall evs stk, forallb isContent evs = true -> nested stk evs = Some stk.
Proof.
  induction evs as [|e evs IH]; intros stk He; [reflexivity|]. simpl in He. apply andb_true_iff in He as [H1 H2].
  destruct e; try discriminate; simpl; auto.
Qed.

(* content of an element (newest first): closes what it opens when it returns *)
Definition TForest : tkind := fun _ b evs => forall stk, exists stk',
  nested stk (rev evs) = Some (stk' ++ stk) /\ (b = true -> stk' = []).
Lemma closed_forest : closed TForest.
Proof.
  split.
  - intros i b stk; exists []; auto.
  - intros i b e1 e2 H1 H2 stk. destruct (H1 stk) as (s1 & G1 & G2). rewrite (G2 eq_refl) in G1. simpl in G1.
    destruct (H2 stk) as (s2 & G3 & G4). exists s2; split; auto. rewrite rev_app_distr, nested_app, G1; auto.
Qed.
Lemma forallb_rev : forall A (f : A -> bool) l, forallb f (rev l) = forallb f l.
Proof. intros A f; induction l; simpl; auto. rewrite forallb_app, IHl; simpl. destruct (f a), (forallb f l); auto. Qed.
Lemma content_forest : forall i b evs, TAll isContent i b evs -> TForest i b evs.
Proof. intros i b evs H stk. exists []; split; auto. simpl. apply nested_content. rewrite forallb_rev; auto. Qed.
Lemma quiet_content : forall i b evs, TQuiet i b evs -> TAll isContent i b evs.
Proof. intros i b evs [->|(_&_&n&->)]; reflexivity. Qed.
Lemma quiet_decl : forall i b evs, TQuiet i b evs -> TDecl i b evs.
Proof. intros i b evs [->|(_&->&_)]; unfold TDecl; try reflexivity; tauto. Qed.
Lemma misc_content : forall i b evs, TAll isMisc i b evs -> TAll isContent i b evs.
Proof. unfold TAll; induction evs as [|e]; simpl; auto. intros H; apply andb_true_iff in H as [H1 H2]. rewrite IHevs by auto. destruct e; try discriminate; auto. Qed.
Lemma misc_decl : forall i b evs, TAll isMisc i b evs -> TDecl i b evs.
Proof. unfold TAll, TDecl; induction evs as [|e]; simpl; auto. intros H; apply andb_true_iff in H as [H1 H2]. intros Hi; rewrite IHevs by auto. destruct e; try discriminate; auto. Qed.
Global Hint Resolve closed_forest : eff.

Section Funs.
Variable E : env.
Variable S : Type.
Variable H : handler S.

Lemma eff_undeclared : forall name,
  eff TQuiet (bind S (get S inSubset) (fun sub => bind S (if sub =? 0 then emit S H (EReference name) else ret S tt) (fun _ => @pan S ent))).
Proof.
  intros name s. unfold bind, get. cbn [fst snd].
  destruct (Z.eqb_spec (inSubset s) 0) as [Hi|Hi].
  - unfold emit, wrap, emit_raw. destruct (h_event H (hs s) (the_view S s) (EReference name)) as [h' r].
    exists [(EReference name, r)].
    destruct r; cbn [fst snd ctx_error pan isret tr add_event app map]; (refine (conj eq_refl (conj _ (conj _ _))); [right; eauto | | discriminate]).
    + left; split; simpl; auto.
    + left; split; simpl; auto.
    + right; left. exists (EReference name), k, []; auto.
    + right; right. exists (EReference name), []; auto.
  - exists []. refine (conj eq_refl (conj _ (conj _ _))); [left; auto | left; split; simpl; auto | discriminate].
Qed.
Hint Resolve eff_undeclared : eff.

Lemma eff_entityRef : eff TQuiet (parseEntityRef E S H).
Proof. pose proof closed_quiet as TC. unfold parseEntityRef. eauto_eff. Qed.
Hint Resolve eff_entityRef : eff.

Lemma lexical_rtrim : forall b, lexical (rtrim b).
Proof. intros b; unfold rtrim; destruct (rev b); simpl; auto. Qed.
Lemma eff_attrValueLoop : forall n q nm b sp en, eff TQuiet (attrValueLoop E S H n q nm b sp en).
Proof.
  pose proof closed_quiet as TC.
  induction n; intros; [simpl; eauto with eff|]. cbn [attrValueLoop]. eauto_eff.
  apply eff_mlift; auto. apply lexical_rtrim.
Qed.
Hint Resolve eff_attrValueLoop : eff.
Lemma eff_attributeValue : forall n nm, eff TQuiet (parseAttributeValue E S H n nm).
Proof. pose proof closed_quiet as TC. intros; unfold parseAttributeValue, parseAttributeValueInternal. eauto_eff. Qed.
Hint Resolve eff_attributeValue : eff.
Hint Extern 1 (eff _ (mlift _ (attrNormalizeSpace _))) => apply eff_mlift; [auto|apply lexical_norm] : eff.
Lemma eff_attribute : forall n nm, eff TQuiet (parseAttribute E S H n nm).
Proof. pose proof closed_quiet as TC. intros; unfold parseAttribute. eauto_eff. Qed.
Hint Resolve eff_attribute : eff.
Lemma eff_afterNSDecl : forall T, closed T -> eff T (afterNSDecl E S).
Proof. intros T TC; unfold afterNSDecl. eauto_eff. Qed.
Hint Resolve eff_afterNSDecl : eff.
Hint Extern 2 (eff _ (modify _ _)) => apply eff_modify; [auto | reflexivity | intros; repeat split] : eff.
Lemma eff_attrLoop : forall n l attrs k, eff TQuiet (attrLoop E S H n l attrs k).
Proof.
  pose proof closed_quiet as TC.
  induction n; intros; [simpl; eauto with eff|]. cbn [attrLoop]. cbv zeta. eauto_eff.
Qed.
Hint Resolve eff_attrLoop : eff.

(* ---- start and end tags ---- *)
Definition framed (s s' : pst S) : Prop :=
  depth s' = depth s /\ inSubset s' = inSubset s /\ version s' = version s /\ encoding s' = encoding s /\ standalone s' = standalone s.
Definition starts (m : M S unit) : Prop := forall s, exists evs,
  tr (snd (m s)) = evs ++ tr s /\ resp (fst (m s)) evs /\
  ((isret (fst (m s)) = true /\ framed s (snd (m s)) /\
    exists l p u ns atts r, evs = [(EStartElement l p u ns atts, r)] /\ nodeTab (snd (m s)) = (l, p, u) :: nodeTab s) \/
   (isret (fst (m s)) = false /\
    (TQuiet (inSubset s) false (map fst evs) \/ exists l p u ns atts r, evs = [(EStartElement l p u ns atts, r)]))).
Lemma starts_bind : forall A (m : M S A) f, eff TQuiet m -> (forall a, starts (f a)) -> starts (bind S m f).
Proof.
  intros A m f Hm Hf s. destruct (Hm s) as (evs & H1 & H2 & H3 & H4). unfold bind.
  destruct (m s) as [[a|e| |] s1]; cbn [fst snd isret] in *.
  - destruct (H4 eq_refl) as (F1&F2&F3&F4&F5&F6). destruct H2 as [H2|(X&_)]; [|discriminate].
    destruct evs; [|discriminate]. simpl in H1.
    destruct (Hf a s1) as (evs2 & G1 & G2 & G3). exists evs2. rewrite H1 in G1. rewrite F1, F3 in G3. split; auto. split; auto.
    destruct G3 as [(G3 & (G4&G5&G6&G7&G8) & G9)|G3]; [left|right; auto]. split; auto. split; [|auto].
    repeat split; congruence.
  - exists evs. split; auto. split; [eapply resp_cast; [|eauto]; simpl; auto|right; auto].
  - exists evs. split; auto. split; [eapply resp_cast; [|eauto]; simpl; auto|right; auto].
  - exists evs. split; auto. split; [eapply resp_cast; [|eauto]; simpl; auto|right; auto].
Qed.
Lemma starts_failw : forall k, starts (failw S k).
Proof. intros k s. exists []. split; auto. split; [left; simpl; auto|]. right; split; auto. left; left; auto. Qed.
Lemma starts_wrap : forall m, starts m -> starts (wrap S m).
Proof.
  intros m Hm s. destruct (Hm s) as (evs & H1 & H2 & H3). exists evs. unfold wrap.
  destruct (m s) as [[a|e| |] s']; simpl in *; split; auto; split; auto.
  destruct H2 as [[G1 G2]|[(e0&k&rest&G1&G2&G3)|(e0&rest&G1&G2&G3)]]; [left|right;left|discriminate].
  - split; auto. simpl in *. apply nohandler_ctx; auto.
  - exists e0, k, rest; repeat split; auto. right. destruct G3 as [G3|G3]; inversion G3; reflexivity.
Qed.
Lemma starts_emit : forall l p u ns atts p', p' = p ->
  starts (bind S (emit S H (EStartElement l p u ns atts)) (fun _ => modify S (fun s => set_nodeTab S ((l, p', u) :: nodeTab s) s))).
Proof.
  intros l p u ns atts p' -> s. unfold bind, emit, wrap, emit_raw.
  destruct (h_event _ _ _ _) as [h' r]. exists [(EStartElement l p u ns atts, r)].
  destruct r; cbn; (split; [reflexivity|]).
  - split; [left; simpl; auto|]. left. split; auto. split; [repeat split|]. exists l, p, u, ns, atts, HNil; auto.
  - split; [left; simpl; auto|]. left. split; auto. split; [repeat split|]. exists l, p, u, ns, atts, HUnspec; auto.
  - split; [right; left; exists (EStartElement l p u ns atts), k, []; auto|]. right; split; auto. right.
    exists l, p, u, ns, atts, (HError k); auto.
  - split; [right; right; exists (EStartElement l p u ns atts), []; auto|]. right; split; auto. right.
    exists l, p, u, ns, atts, HPanic; auto.
Qed.
Ltac sstep := match goal with
  | |- starts (bind _ (emit _ _ _) _) => apply starts_emit
  | |- starts (bind _ _ _) => apply starts_bind; [solve [eauto with eff]|intro]
  | |- starts (if ?b then _ else _) => destruct b eqn:?
  | |- starts (match ?x with _ => _ end) => destruct x eqn:?
  | |- starts (failw _ _) => apply starts_failw
  | |- starts (let _ := _ in _) => cbv zeta
  end.
Lemma starts_startTag : forall n, starts (parseStartTag E S H n).
Proof.
  pose proof closed_quiet as TC. intros n; unfold parseStartTag. repeat sstep.
  destruct (str_eqb (lookupNS a4 _) []) eqn:Hu; auto.
  match goal with H : (negb (str_eqb ?p []) && _) = false |- _ => destruct (str_eqb p []) eqn:Hp; [apply str_eqb_eq in Hp; auto | discriminate] end.
Qed.

Definition ends (m : M S unit) : Prop := forall s, exists evs,
  tr (snd (m s)) = evs ++ tr s /\ resp (fst (m s)) evs /\
  ((isret (fst (m s)) = true /\ framed s (snd (m s)) /\
    exists l p u r, evs = [(EEndElement l p u, r)] /\ nodeTab s = (l, p, u) :: nodeTab (snd (m s))) \/
   (isret (fst (m s)) = false /\
    (evs = [] \/ exists l p u r, evs = [(EEndElement l p u, r)] /\ exists rest, nodeTab s = (l, p, u) :: rest))).
Lemma ends_wrap : forall m, ends m -> ends (wrap S m).
Proof.
  intros m Hm s. destruct (Hm s) as (evs & H1 & H2 & H3). exists evs. unfold wrap.
  destruct (m s) as [[a|e| |] s']; simpl in *; split; auto; split; auto.
  destruct H2 as [[G1 G2]|[(e0&k&rest&G1&G2&G3)|(e0&rest&G1&G2&G3)]]; [left|right;left|discriminate].
  - split; auto. simpl in *. apply nohandler_ctx; auto.
  - exists e0, k, rest; repeat split; auto. right. destruct G3 as [G3|G3]; inversion G3; reflexivity.
Qed.
Definition TNone : tkind := fun _ _ evs => evs = [].
Lemma closed_none : closed TNone.
Proof. unfold TNone; split; auto. intros i b e1 e2 -> ->; auto. Qed.
Lemma ends_endTag : ends (parseEndTag E S H).
Proof.
  pose proof closed_none as TC.
  intros s. remember (parseEndTag E S H s) as res eqn:Hres. unfold parseEndTag in Hres. unfold bind at 1 in Hres.
  assert (Hc : forall s, exists b l, mconsume S (s_ "/>") s = (Ret b, set_inp S l s)).
  { intros s0. unfold mconsume, lift, pconsume. destruct (has_prefix _ _); eauto. }
  destruct (Hc s) as (b & l0 & Hc'). rewrite Hc' in Hres. clear Hc Hc'. set (s1 := set_inp S l0 s) in Hres.
  unfold bind at 1, get in Hres.
  match type of Hres with context [bind S ?m ?f s1] => set (mm := m) in Hres; set (ff := f) in Hres end.
  assert (Hm : eff TNone mm). { unfold mm. eauto_eff. }
  destruct (Hm s1) as (evs & H1 & H2 & H3 & H4). unfold bind in Hres.
  unfold TNone in H2. destruct evs; [|discriminate].
  destruct (mm s1) as [[a|e| |] s2]; cbn [fst snd isret] in *.
  - destruct (H4 eq_refl) as (F1&F2&F3&F4&F5&F6). unfold ff in Hres.
    change (nodeTab s1) with (nodeTab s) in *. change (tr s1) with (tr s) in H1.
    destruct (nodeTab s) as [|[[l p] u] rest] eqn:Hn; subst res.
    + exists []. simpl. split; auto. split; [left; simpl; auto|]. right; auto.
    + unfold bind, emit, wrap, emit_raw. destruct (h_event _ _ _ _) as [h' r]. exists [(EEndElement l p u, r)].
      destruct r; cbn; rewrite H1; (split; [reflexivity|]).
      * split; [left; simpl; auto|]. left; split; auto. split; [repeat split; assumption|].
        exists l, p, u, HNil. split; auto. rewrite F1; auto.
      * split; [left; simpl; auto|]. left; split; auto. split; [repeat split; assumption|].
        exists l, p, u, HUnspec. split; auto. rewrite F1; auto.
      * split; [right; left; exists (EEndElement l p u), k, []; auto|]. right; split; auto. right. exists l, p, u, (HError k); eauto.
      * split; [right; right; exists (EEndElement l p u), []; auto|]. right; split; auto. right. exists l, p, u, HPanic; eauto.
  - exists []. subst res. split; [assumption|]. split; [eapply resp_cast; [|eauto]; simpl; auto|right; auto].
  - exists []. subst res. split; [assumption|]. split; [eapply resp_cast; [|eauto]; simpl; auto|right; auto].
  - exists []. subst res. split; [assumption|]. split; [eapply resp_cast; [|eauto]; simpl; auto|right; auto].
Qed.

(* an element: one start event, its content, the matching end event *)
Definition TElement : tkind := fun _ b evs =>
  (b = false /\ (evs = [] \/ exists n, evs = [EReference n])) \/
  exists l p u ns atts rest, rev evs = EStartElement l p u ns atts :: rest /\
    ((b = false /\ forall stk, exists stk', nested stk rest = Some (stk' ++ stk)) \/
     (exists body, rest = body ++ [EEndElement l p u] /\ forall stk, nested stk body = Some stk)).

Lemma eff_element0 : forall n content, eff TForest content -> eff TElement (parseElement E S H n content).
Proof.
  intros n content Hc s. remember (parseElement E S H n content s) as res eqn:Hres. unfold parseElement in Hres.
  unfold bind at 1 in Hres.
  destruct (starts_wrap _ (starts_startTag n) s) as (e1 & A1 & A2 & A3).
  destruct (wrap S (parseStartTag E S H n) s) as [[a|e| |] s1] eqn:Hs1; cbn [fst snd isret] in *.
  2,3,4: subst res; cbn [fst snd isret]; exists e1; (split; [auto|]); destruct A3 as [(X&_)|(_&A3)]; [discriminate|];
    (refine (conj _ (conj _ _)); [|eapply resp_cast; [|eauto]; simpl; auto | discriminate]);
    destruct A3 as [[A3|(_&_&A3)]|(l&p&u&ns&atts&r&->)];
    [left; auto | left; auto | right; exists l, p, u, ns, atts, []; (split; [reflexivity|]); left; split; [reflexivity|]; intros stk; exists []; reflexivity].
  destruct A3 as [(_&(F1&F2&F3&F4&F5)&l&p&u&ns&atts&r&->&Hn)|(X&_)]; [|discriminate].
  pose proof closed_forest as TC.
  set (mid := bind S (mhas S (s_ "/>")) (fun empty : bool => if empty then ret S tt else wrap S content)).
  assert (Hmid : eff TForest mid). { unfold mid. eauto_eff. }
  assert (Heq : bind S (mhas S (s_ "/>")) (fun empty : bool => bind S (if empty then ret S tt else wrap S content) (fun _ => wrap S (parseEndTag E S H))) s1
     = bind S mid (fun _ => wrap S (parseEndTag E S H)) s1).
  { unfold mid, bind. destruct (mhas S (s_ "/>") s1) as [[b|e| |] s2]; auto. }
  rewrite Heq in Hres; clear Heq.
  destruct (Hmid s1) as (e2 & B1 & B2 & B3 & B4). unfold bind in Hres.
  destruct (mid s1) as [[b|e| |] s2]; cbn [fst snd isret] in *.
  2,3,4: subst res; cbn [fst snd isret]; exists (e2 ++ [(EStartElement l p u ns atts, r)]); (split; [rewrite B1, A1, <- app_assoc; reflexivity|]);
    (refine (conj _ (conj _ _)); [|apply resp_app; [eapply resp_ret_ok; eauto| eapply resp_cast; [|eauto]; simpl; auto] | discriminate]);
    right; exists l, p, u, ns, atts, (rev (map fst e2)); (split; [rewrite map_app, rev_app_distr; reflexivity|]); left; split; auto;
    intros stk; destruct (B2 stk) as (stk' & C & _); exists stk'; auto.
  assert (Hb : forall stk, nested stk (rev (map fst e2)) = Some stk).
  { intros stk. destruct (B2 stk) as (stk' & C & D). rewrite (D eq_refl) in C; auto. }
  specialize (B4 eq_refl). destruct B4 as (G0&G1&G2&G3&G4&G5).
  destruct (ends_wrap _ ends_endTag s2) as (e3 & C1 & C2 & C3).
  subst res. exists (e3 ++ e2 ++ [(EStartElement l p u ns atts, r)]).
  split; [rewrite C1, B1, A1, <- !app_assoc; reflexivity|].
  assert (Hok : forallb okr (e2 ++ [(EStartElement l p u ns atts, r)]) = true).
  { rewrite forallb_app. apply resp_ret_ok in A2. apply resp_ret_ok in B3. rewrite A2, B3; auto. }
  refine (conj _ (conj _ _)).
  - right. exists l, p, u, ns, atts, (rev (map fst e2) ++ rev (map fst e3)).
    split; [rewrite !map_app, !rev_app_distr; reflexivity|].
    destruct C3 as [(_&_&l'&p'&u'&r'&->&Hn')|(Hf&[->|(l'&p'&u'&r'&->&rest&Hn')])].
    + right. exists (rev (map fst e2)). split; auto. simpl. rewrite G0, Hn in Hn'. congruence.
    + left. split; auto. intros stk; exists []. simpl. rewrite app_nil_r; auto.
    + right. exists (rev (map fst e2)). split; auto. simpl. rewrite G0, Hn in Hn'. congruence.
  - apply resp_app; auto.
  - intros Hr. destruct C3 as [(_&(K1&K2&K3&K4&K5)&l'&p'&u'&r'&->&Hn')|(Hf&_)]; [|congruence].
    rewrite G0, Hn in Hn'. repeat split; congruence.
Qed.
Lemma element_forest : forall i b evs, TElement i b evs -> TForest i b evs.
Proof.
  intros i b evs [(->&[->|(n&->)])|(l&p&u&ns&atts&rest&Hr&[(->&Hn)|(body&->&Hn)])] stk.
  - exists []; auto.
  - exists []; auto.
  - destruct (Hn ((l,p,u)::stk)) as (stk' & G). exists (stk' ++ [(l,p,u)]). split; [|discriminate].
    rewrite Hr. cbn [nested]. rewrite G, <- app_assoc; auto.
  - exists []; split; auto. rewrite Hr. cbn [nested]. rewrite nested_app, Hn. cbn [nested]. rewrite node_eqb_refl; auto.
Qed.

(* ---- leaves ---- *)
Lemma eff_PI : forall T, closed T -> (forall i b t d, T i b [EProcessingInstruction t d]) -> eff T (parsePI E S H).
Proof. intros T TC HT; unfold parsePI. eauto_eff. apply eff_emit; auto. Qed.
Lemma eff_comment : forall T, closed T -> (forall i b c, T i b [EComment c]) -> eff T (parseComment E S H).
Proof. intros T TC HT; unfold parseComment. eauto_eff. apply eff_emit; auto. Qed.
Lemma all_one : forall K e, K e = true -> forall i b, TAll K i b [e].
Proof. intros K e He i b. unfold TAll; simpl. rewrite He; auto. Qed.
Lemma eff_charData : forall c, eff (TAll isContent) (parseCharData E S H c).
Proof. pose proof (closed_all isContent) as TC. intros c; unfold parseCharData. eauto_eff; apply eff_emit; auto; intros; reflexivity. Qed.
Hint Resolve eff_charData : eff.
Lemma eff_CDSect : eff (TAll isContent) (parseCDSect E S H).
Proof. pose proof (closed_all isContent) as TC. unfold parseCDSect. eauto_eff. Qed.
Hint Extern 2 (eff TForest (parsePI _ _ _)) => apply eff_weaken with (T := TAll isContent); [apply content_forest | apply eff_PI; [apply closed_all | reflexivity]] : eff.
Hint Extern 2 (eff TForest (parseComment _ _ _)) => apply eff_weaken with (T := TAll isContent); [apply content_forest | apply eff_comment; [apply closed_all | reflexivity]] : eff.
Hint Extern 2 (eff TForest (parseCDSect _ _ _)) => apply eff_weaken with (T := TAll isContent); [apply content_forest | apply eff_CDSect] : eff.
Hint Extern 2 (eff TForest (parseCharData _ _ _ _)) => apply eff_weaken with (T := TAll isContent); [apply content_forest | apply eff_charData] : eff.
Hint Extern 2 (eff TForest (parseEntityRef _ _ _)) => apply eff_weaken with (T := TQuiet); [intros; apply content_forest, quiet_content; assumption | apply eff_entityRef] : eff.
Hint Extern 2 (eff TForest (emit _ _ _)) => apply eff_emit; intros; apply content_forest; reflexivity : eff.
Hint Extern 2 (eff TForest (emit_raw _ _ _)) => apply eff_emit_raw; intros; apply content_forest; reflexivity : eff.

Lemma eff_chunk : forall content c, eff TForest content -> eff TForest (parseBalancedChunk S H content c).
Proof.
  intros content c Hc s. unfold parseBalancedChunk. cbv zeta. destruct (40 <? depth s + 1).
  - exists []. refine (conj eq_refl (conj _ (conj _ _))); [apply closed_forest | left; simpl; auto | discriminate].
  - match goal with |- context [content ?x] => set (s0 := x) end.
    destruct (Hc s0) as (evs & H1 & H2 & H3 & H4). destruct (content s0) as [o s1]. cbn [fst snd] in *.
    exists evs. refine (conj H1 (conj _ (conj _ _))); auto. intros; repeat split.
Qed.
Hint Resolve eff_chunk : eff.
Lemma eff_reference : forall content, eff TForest content -> eff TForest (parseReference E S H content).
Proof. pose proof closed_forest as TC. intros; unfold parseReference. eauto_eff. Qed.
Hint Resolve eff_reference : eff.
Lemma eff_element : forall n content, eff TForest content -> eff TForest (parseElement E S H n content).
Proof. intros. apply eff_weaken with (T := TElement). apply element_forest. apply eff_element0; auto. Qed.
Hint Resolve eff_element : eff.
Lemma eff_at_if : forall T A (c : pst S -> bool) (m1 m2 : M S A), eff T m1 -> eff T m2 -> eff T (fun s => (if c s then m1 else m2) s).
Proof. intros T A c m1 m2 H1 H2 s. cbv beta. destruct (c s); auto. Qed.
Lemma eff_content : forall n, eff TForest (parseContent E S H n).
Proof.
  pose proof closed_forest as TC.
  induction n; [simpl; eauto with eff|]. cbn [parseContent]. eauto_eff.
  intro s. cbv beta zeta.
  match goal with |- context [(if has_prefix ?a ?l then _ else _)] => generalize (has_prefix a l) end. intros b1.
  repeat match goal with |- context [has_prefix ?a ?l] => generalize (has_prefix a l); intro end.
  match goal with |- context [?m s] => match type of m with M S unit => revert s; change (eff TForest m) | _ => idtac end end.
  eauto_eff.
Qed.
End Funs.
