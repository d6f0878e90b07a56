(* A handler that does not accept the events of a document makes the parse
   fail; so parsing a document that repeats an attribute into a tree fails. *)
From Coq Require Import FMapPositive.
From Verif Require Import Base Utf8 Utf8Proofs EscapeProofs Scan Parser Effects DocEffects Sim Complete DocComplete Diverge Wrapped Heap TreeBuilder TreeShape TreeOps
  Forest History TreeCalls Xml Mirror XmlBuild XmlSteps XmlElem XmlTree XmlParse.
From Verif Require Import XmlSpec Grammar XmlRound XmlGrammar.

(* ---- any handler ---- *)
Section Shadow.
Variable S : Type.
Variable H : handler S.
(* goes on, deaf, after the first refusal of H *)
Definition shadowH : handler (option S) := {|
  h_event := fun s v e => match s with
    | None => (None, HNil)
    | Some x => match h_event H x v e with (x', HNil) | (x', HUnspec) => (Some x', HNil) | _ => (None, HNil) end end;
  h_getEntity := fun s v n => match s with None => (None, Answer None true) | Some x => let (y, a) := h_getEntity H x v n in (Some y, a) end;
  h_getPEntity := fun s v n => match s with None => (None, Answer None true) | Some x => let (y, a) := h_getPEntity H x v n in (Some y, a) end;
  h_setOrig := fun s e l => match s with None => None | Some x => Some (h_setOrig H x e l) end;
  h_mixed := fun s n => match s with None => None | Some x => h_mixed H x n end;
  h_docEntity := fun s n => match s with None => None | Some x => h_docEntity H x n end;
  h_createAttr := fun s l p v => match s with None => (None, Ret tt) | Some x => let (y, a) := h_createAttr H x l p v in (Some y, a) end;
  h_chunkEnter := fun s => match s with None => None | Some x => Some (h_chunkEnter H x) end;
  h_chunkLeave := fun a b => match a, b with Some x, Some y => Some (h_chunkLeave H x y) | _, _ => None end |}.
Lemma shadow_shadow : shadow (fun a b => b = Some a) (fun _ => False) H shadowH.
Proof.
  constructor; cbn.
  - intros a b v e ->. destruct (h_event H a v e) as [x []]; cbn; auto.
  - intros a b v n ->. destruct (h_getEntity H a v n); auto.
  - intros a b v n ->. destruct (h_getPEntity H a v n); auto.
  - intros a b e l ->. reflexivity.
  - intros a b n ->. reflexivity.
  - intros a b n ->. reflexivity.
  - intros a b l p v ->. destruct (h_createAttr H a l p v); auto.
  - intros a b ->. reflexivity.
  - intros a b a' b' -> ->. reflexivity.
  - auto.
  - auto.
  - auto.
  - auto.
  - auto.
  - auto.
  - auto.
Qed.
Lemma shadow_accepts : accepts (option S) shadowH.
Proof. intros [h|] v e; cbn; [|auto]. destruct (h_event H h v e) as [x []]; cbn; auto. Qed.

Lemma shadow_dead v : forall evs t, exists t', deliver (option S) shadowH v (None, t) evs = Some (None, t').
Proof. induction evs as [|e evs IH]; intros t; cbn [deliver fst snd]; [eauto|]. cbn. apply IH. Qed.
Lemma shadow_deliver v : forall evs s t t0 r, deliver (option S) shadowH v (Some s, t) evs = Some r ->
  match fst r with
  | Some s' => exists t', deliver S H v (s, t0) evs = Some (s', t')
  | None => deliver S H v (s, t0) evs = None
  end.
Proof.
  induction evs as [|e evs IH]; intros s t t0 r D.
  - injection D as <-. cbn. eauto.
  - cbn [deliver fst snd] in *. cbn [h_event shadowH] in D. destruct (h_event H s v e) as [s' []].
    + eapply IH, D.
    + eapply IH, D.
    + destruct (shadow_dead v evs ((e, HNil) :: t)) as (t' & Q). rewrite Q in D. injection D as <-. reflexivity.
    + destruct (shadow_dead v evs ((e, HNil) :: t)) as (t' & Q). rewrite Q in D. injection D as <-. reflexivity.
Qed.

(* refused if the handler accepts no rendering of the events (the text events
   of white space may be reported as ignorable) *)
Theorem refused_document E : env_ok E -> forall src i evs d, document E src i evs d -> declared_once evs d ->
  forall bom n h, bom_ok bom -> (List.length src < n)%nat ->
  (forall h0, fst (h_event H h view0 ESetDocumentLocator) = h0 -> forall evs', Forall2 same_text evs evs' -> forall t,
     deliver S H (docview i) (h0, t) (EStartDocument :: evs' ++ [EEndDocument]) = None) ->
  (exists k, fst (Parse E S H n h (bom ++ utf8 src)) = Fail (PErr (HErr k))) \/ fst (Parse E S H n h (bom ++ utf8 src)) = Pan.
Proof.
  intros OK src i evs d D Once bom n h Hb Hn Ref.
  pose proof (dsim_Parse _ _ _ _ E H shadowH shadow_shadow n h (Some h) (bom ++ utf8 src) eq_refl) as Q.
  assert (B : bad (fun _ => False) (snd (Parse E S H n h (bom ++ utf8 src)))).
  { destruct Q as [Q|[_ Q]]; [exact Q|exfalso].
    destruct (deliver_accepts _ _ shadow_accepts view0 [ESetDocumentLocator] (Some h, [])) as (h1 & Hd1 & _).
    destruct (document_st E OK _ shadowH src i evs d D Once bom n (Some h) h1 Hb Hn Hd1) as (evs0 & F & R).
    destruct (deliver_accepts _ _ shadow_accepts (docview i) evs0 h1) as (ht' & Hd & _).
    destruct (R ht' Hd) as (s' & Hp & Hh & _). rewrite Hp in Q. cbn [snd] in Q. rewrite Hh in Q.
    inversion F as [|? e ? r F1 F2]; subst. apply same_text_other in F1; [|discriminate]. subst e.
    apply Forall2_app_inv_l in F2 as (a & b & Fa & Fb & ->). inversion Fb as [|? e ? r F3 F4]; subst. inversion F4; subst.
    apply same_text_other in F3; [|discriminate]. subst e.
    destruct h1 as [[s1|] t1].
    - pose proof (shadow_deliver _ _ s1 t1 [] ht' Hd) as X. rewrite Q in X. destruct X as (t' & X).
      rewrite (Ref s1) in X; [discriminate| |exact Fa].
      clear - Hd1. cbn in Hd1. destruct (h_event H h view0 ESetDocumentLocator) as [x []]; cbn in *; congruence.
    - destruct (shadow_dead (docview i) (EStartDocument :: a ++ [EEndDocument]) t1) as (t' & X). rewrite X in Hd. injection Hd as <-. discriminate. }
  destruct (parse_tri E S H n h (bom ++ utf8 src)) as (tev & Te & Rs & _). destruct B as [(e & r & I & K)|[]]. rewrite Te in I.
  assert (Nok : forall l, In (e, r) l -> forallb okr l = true -> False).
  { intros l Hl Ho. rewrite forallb_forall in Ho. apply Ho in Hl. congruence. }
  destruct Rs as [[Ho _]|[(e1 & k & rest & _ & _ & [X|X])|(e1 & rest & _ & _ & X)]].
  - exfalso. eapply Nok; eassumption.
  - destruct (Parse_wrapped E S H n h _ _ X) as (e' & Y & _). discriminate.
  - left. eauto.
  - right. exact X.
Qed.
End Shadow.

(* ---- repeated attributes and the tree ---- *)
(* events up to a start tag that repeats an attribute, its open elements
   aside; [top]: outside of any element, where no text stands *)
Inductive broken : bool -> list event -> Prop :=
| br_here top evs xs l p u ns a a' r : mirrors evs xs -> (top = true -> no_text xs) -> mirrors_atts a a' -> ~ NoDup (map fst a') ->
    broken top (evs ++ EStartElement l p u (map Some ns) a :: r)
| br_in top evs xs l p u ns a a' r : mirrors evs xs -> (top = true -> no_text xs) -> mirrors_atts a a' -> NoDup (map fst a') ->
    broken false r -> broken top (evs ++ EStartElement l p u (map Some ns) a :: r).

Section Feed.
Variable n : nat.
Variable v : view.
Hypothesis Hv : v_inSubset v <> 1 /\ v_inSubset v <> 2.
Lemma starts_front evs e r : (forall t, ~ text_event e t) -> starts_text evs -> starts_text (evs ++ e :: r).
Proof. intros _ (x & t & q & -> & T). exists x, t, (q ++ e :: r). auto. Qed.
Lemma feed_broken top evs : broken top evs -> forall s p ks, current s p -> level (tb_heap s) p ks -> (starts_text evs -> ~ last_text (tb_heap s) ks) ->
  (tb_elem s = None -> top = true) -> short n evs -> feed n v s evs = None.
Proof.
  induction 1 as [top evs xs l pf u ns a a' r M Tp Ma Nd|top evs xs l pf u ns a a' r M Tp Ma Nd B IH]; intros s p ks C LV Nl Top Sh.
  - destruct (build n v Hv evs xs M s p ks C LV) as (h1 & ks1 & R1 & LV1 & K1 & _).
    { intros St. apply Nl. apply starts_front; [intros t [X|X]; discriminate|exact St]. }
    { intros X. apply Tp, Top, X. } { apply (short_app _ _ _ Sh). }
    rewrite feed_app, R1. cbn [feed].
    destruct (repeated_refused n (with_heap h1 s) v l pf u ns a a') as (h2 & R2).
    { apply LV1. } { exact Ma. } { exact Nd. }
    { intros x b w Hw. apply short_app in Sh as [_ Sh]. eapply Sh; [left; reflexivity|exact Hw]. }
    rewrite R2. reflexivity.
  - destruct (build n v Hv evs xs M s p ks C LV) as (h1 & ks1 & R1 & LV1 & K1 & _).
    { intros St. apply Nl. apply starts_front; [intros t [X|X]; discriminate|exact St]. }
    { intros X. apply Tp, Top, X. } { apply (short_app _ _ _ Sh). }
    rewrite feed_app, R1. cbn [feed]. apply short_app in Sh as [_ Sh].
    assert (C1 : current (with_heap h1 s) p) by (eapply current_kept; eassumption).
    destruct (start_step n v Hv (with_heap h1 s) p (ks ++ ks1) l pf u ns a a' C1 LV1 Ma Nd) as (h2 & c & props & A & R2 & LV2 & K2 & LVe & E & D & P & Pa & At & Lt).
    { intros x b w Hw. eapply Sh; [left; reflexivity|exact Hw]. }
    rewrite R2. eapply IH.
    + split; [apply C|]. cbn [tb_elem tb_heap tb_doc with_heap] in *. split; [reflexivity|]. unfold kind, data_of. rewrite E. cbn. rewrite D. reflexivity.
    + exact LVe.
    + intros _ (z & Z & _). discriminate.
    + discriminate.
    + eapply short_cons, Sh.
Qed.
End Feed.

Lemma broken_text e t evs : text_event e t -> broken false evs -> broken false (e :: evs).
Proof.
  intros T B. inversion B as [top ev xs l pf u ns a a' r M Tp Ma Nd|top ev xs l pf u ns a a' r M Tp Ma Nd B']; subst.
  - rewrite app_comm_cons. eapply br_here; [eapply mirrors_char; eassumption|discriminate|eassumption|eassumption].
  - rewrite app_comm_cons. eapply br_in; [eapply mirrors_char; eassumption|discriminate|eassumption|eassumption|eassumption].
Qed.
Lemma broken_front top pre ys evs : (forall evs2 xs2, mirrors evs2 xs2 -> mirrors (pre ++ evs2) (ys ++ xs2)) ->
  (forall t, ~ In (XText t) ys) -> broken top evs -> broken top (pre ++ evs).
Proof.
  intros K Ny B. inversion B as [top' ev xs l pf u ns a a' r M Tp Ma Nd|top' ev xs l pf u ns a a' r M Tp Ma Nd B']; subst; rewrite app_assoc.
  - eapply br_here; [apply K; eassumption| |eassumption|eassumption]. intros X t Y. apply in_app_or in Y as [Y|Y]; [exact (Ny t Y)|exact (Tp X t Y)].
  - eapply br_in; [apply K; eassumption| |eassumption|eassumption|eassumption]. intros X t Y. apply in_app_or in Y as [Y|Y]; [exact (Ny t Y)|exact (Tp X t Y)].
Qed.
Lemma broken_more top evs r : broken top evs -> broken top (evs ++ r).
Proof.
  induction 1 as [top evs xs l pf u ns a a' r0 M Tp Ma Nd|top evs xs l pf u ns a a' r0 M Tp Ma Nd B IH]; rewrite <- app_assoc; cbn [app].
  - eapply br_here; eassumption.
  - eapply br_in; eassumption.
Qed.

Definition att_dec (a : list attr) : {NoDup (att_names a)} + {~ NoDup (att_names a)}.
Proof. generalize (att_names a). apply ListDec.NoDup_dec. apply list_eq_dec, Z.eq_dec. Qed.
Lemma distinct_dec evs : distinct_atts evs \/ ~ distinct_atts evs.
Proof.
  induction evs as [|e evs [IH|IH]].
  - left. intros l p u ns a [].
  - destruct e as [| | | |l p u ns a| | | | | | | | | | |];
      try (left; intros l0 p0 u0 ns0 a0 [X|X]; [discriminate|eapply IH, X]).
    destruct (att_dec a) as [Y|Y].
    + left. intros l0 p0 u0 ns0 a0 [X|X]; [injection X as _ _ _ _ <-; exact Y|eapply IH, X].
    + right. intros K. apply Y. eapply K. left. reflexivity.
  - right. intros K. apply IH. eapply distinct_tl, K.
Qed.
Lemma not_distinct_tl e evs : (forall l p u ns a, e <> EStartElement l p u ns a) -> ~ distinct_atts (e :: evs) -> ~ distinct_atts evs.
Proof. intros Ne N K. apply N. intros l p u ns a [X|X]; [exfalso; eapply Ne, X|eapply K, X]. Qed.
Lemma not_distinct_app a b : ~ distinct_atts (a ++ b) -> ~ distinct_atts a \/ (distinct_atts a /\ ~ distinct_atts b).
Proof.
  intros N. destruct (distinct_dec a) as [D|D]; [|auto]. right. split; [exact D|]. intros K. apply N.
  intros l p u ns x Hx. apply in_app_or in Hx as [Hx|Hx]; [eapply D, Hx|eapply K, Hx].
Qed.

Lemma grammar_broken E :
  (forall ns s evs d, content E ns s evs d -> ~ distinct_atts evs -> no_cdata evs -> broken false evs) /\
  (forall ns s evs d, element E ns s evs d -> ~ distinct_atts evs -> no_cdata evs -> forall top, broken top evs).
Proof.
  enough (K : forall ns, (forall s evs d, content E ns s evs d -> ~ distinct_atts evs -> no_cdata evs -> broken false evs) /\
    (forall s evs d, element E ns s evs d -> ~ distinct_atts evs -> no_cdata evs -> forall top, broken top evs)).
  { split; intros ns; apply (K ns). }
  intros ns. apply (content_element E
    (fun ns s evs d _ => ~ distinct_atts evs -> no_cdata evs -> broken false evs)
    (fun ns s evs d _ => ~ distinct_atts evs -> no_cdata evs -> forall top, broken top evs)); clear ns; intros ns.
  - intros D. exfalso. apply D. intros l p u ns0 a [].
  - intros t t' s evs d T Eo Sm C IH D N. eapply broken_text; [left; reflexivity|]. apply IH; [|eapply no_cdata_tl, N]. eapply not_distinct_tl; [|exact D]. discriminate.
  - intros t x s evs d R X C IH D N. eapply broken_text; [left; reflexivity|]. apply IH; [|eapply no_cdata_tl, N]. eapply not_distinct_tl; [|exact D]. discriminate.
  - intros b b' s evs d T Eo C IH D N. apply (broken_front _ [_] [XComment (utf8 b')]).
    { intros evs2 xs2 M. apply mi_comment, M. } { intros t [X|[]]. discriminate. }
    apply IH; [|eapply no_cdata_tl, N]. eapply not_distinct_tl; [|exact D]. discriminate.
  - intros t s evs d T C IH D N. apply (broken_front _ [_] [XPI (utf8 t) []]).
    { intros evs2 xs2 M. apply mi_pi, M. } { intros t0 [X|[]]. discriminate. }
    apply IH; [|eapply no_cdata_tl, N]. eapply not_distinct_tl; [|exact D]. discriminate.
  - intros t b x s evs d T Nb Bb P C IH D N. apply (broken_front _ [_] [XPI (utf8 t) (utf8 x)]).
    { intros evs2 xs2 M. apply mi_pi, M. } { intros t0 [X|[]]. discriminate. }
    apply IH; [|eapply no_cdata_tl, N]. eapply not_distinct_tl; [|exact D]. discriminate.
  - intros b b' s evs d T Eo C IH D N. exfalso. eapply N. left. reflexivity.
  - intros x s evs1 d1 evs d El IH1 C IH2 D N. apply no_cdata_app in N as [N1 N2].
    apply not_distinct_app in D as [D|[D1 D]]; [apply broken_more, IH1; assumption|].
    destruct (proj2 (grammar_mirror E) _ _ _ _ El D1 N1) as (y & Ty & Ky).
    apply (broken_front _ evs1 [y]); [exact Ky|intros t [X|[]]; exact (Ty t X)|apply IH2; assumption].
  - intros p l t a d u Q A R D N top. destruct (atts_mirror _ _ _ _ A) as (a' & Ma).
    apply (br_here top [] [] _ _ _ d a a'); [constructor|intros _ t0 []|exact Ma|].
    rewrite (mirrors_names _ _ Ma). intros K. apply D. intros l0 p0 u0 ns0 a0 [X|[X|[]]]; [injection X as _ _ _ _ <-; exact K|discriminate].
  - intros p l t a d u s evs d1 Q A R C IH Sl D N top. destruct (atts_mirror _ _ _ _ A) as (a' & Ma).
    destruct (att_dec a) as [Da|Da].
    + apply (br_in top [] [] _ _ _ d a a'); [constructor|intros _ t0 []|exact Ma|rewrite (mirrors_names _ _ Ma); exact Da|].
      apply broken_more, IH.
      * intros K. apply D. intros l0 p0 u0 ns0 a0 Hx. apply in_app_or in Hx as [[X|[]]|Hx]; [injection X as _ _ _ _ <-; exact Da|].
        apply in_app_or in Hx as [Hx|[X|[]]]; [eapply K, Hx|discriminate].
      * apply no_cdata_app in N as [_ N]. apply no_cdata_app in N as [N _]. exact N.
    + apply (br_here top [] [] _ _ _ d a a'); [constructor|intros _ t0 []|exact Ma|rewrite (mirrors_names _ _ Ma); exact Da].
Qed.

Lemma misc_distinct E s evs : misc E s evs -> distinct_atts evs.
Proof. induction 1; intros l0 p0 u0 ns0 a0 X; try (destruct X as [X|X]; [discriminate|]); eauto. destruct X. Qed.
Lemma document_broken E src i evs d : document E src i evs d -> ~ distinct_atts evs -> no_cdata evs -> broken true evs.
Proof.
  assert (K : forall m1 x m2 e1 e2 e3 d, misc E m1 e1 -> element E [] x e2 d -> misc E m2 e3 ->
    ~ distinct_atts (e1 ++ e2 ++ e3) -> no_cdata (e1 ++ e2 ++ e3) -> broken true (e1 ++ e2 ++ e3)).
  { intros m1 x m2 e1 e2 e3 d0 M1 El M2 D N. destruct (misc_mirror _ _ _ M1) as (x1 & T1 & K1).
    apply (broken_front _ e1 x1 _ K1 T1). apply broken_more. apply no_cdata_app in N as [_ N]. apply no_cdata_app in N as [N _].
    eapply (proj2 (grammar_broken E)); [exact El| |exact N].
    intros X. apply D. intros l p u ns a Hx. apply in_app_or in Hx as [Hx|Hx]; [eapply (misc_distinct _ _ _ M1), Hx|].
    apply in_app_or in Hx as [Hx|Hx]; [eapply X, Hx|eapply (misc_distinct _ _ _ M2), Hx]. }
  intros [m1 x m2 e1 e2 e3 d' M1 El M2 _|h v enc sa m1 x m2 e1 e2 e3 d' _ _ M1 El M2] D N; eapply K; eassumption.
Qed.

Lemma feed_same n v : forall evs evs', Forall2 same_text evs evs' -> forall s, feed n v s evs' = feed n v s evs.
Proof.
  induction 1 as [|e e' evs evs' T F IH]; intros s; [reflexivity|]. cbn [feed].
  destruct T as [->|(t & -> & -> & _)]; cbn.
  - destruct (tb_event n s v e) as [s1 []]; auto.
  - change (tb_event n s v (EIgnorableWhitespace t)) with (tb_event n s v (ECharacters t)). destruct (tb_event n s v (ECharacters t)) as [s1 []]; auto.
Qed.
Lemma tb_no_unspec n s v e : snd (tb_event n s v e) <> HUnspec.
Proof. unfold tb_event. destruct (tb_action n s v e (tb_heap s)) as [[[? ?]| | |] ?]; discriminate. Qed.
Lemma deliver_feed_none n v : forall evs s t, feed n v s evs = None -> deliver tb (treeH n) v (s, t) evs = None.
Proof.
  induction evs as [|e evs IH]; intros s t F; [discriminate|]. cbn [feed] in F. cbn [deliver fst snd]. change (h_event (treeH n) s v e) with (tb_event n s v e).
  pose proof (tb_no_unspec n s v e) as U. destruct (tb_event n s v e) as [s1 []]; auto. exfalso. apply U. reflexivity.
Qed.

Theorem repeated_document E src i evs d : env_ok E -> document E src i evs d -> declared_once evs d ->
  ~ distinct_atts evs -> no_cdata evs ->
  forall bom n m, bom_ok bom -> (List.length src < n)%nat -> (evs_len evs < m)%nat ->
  fst (Parse E tb (treeH m) n tb_init (bom ++ utf8 src)) <> Ret tt.
Proof.
  intros OK D Once Nd Nc bom n m Hb Hn Hm.
  destruct (refused_document tb (treeH m) E OK src i evs d D Once bom n tb_init Hb Hn) as [(k & X)|X]; [|rewrite X; discriminate..].
  intros h0 <- evs' F t. apply deliver_feed_none.
  change (fst (h_event (treeH m) tb_init view0 ESetDocumentLocator)) with tb_init.
  destruct (level_doc (di_version i) (match di_encoding i with Some e => e | None => [] end) (sa_code (di_standalone i))) as [LV Kd].
  set (h := with_new _ _) in *. set (s := {| tb_heap := h; tb_doc := Some 1%positive; tb_elem := None |}).
  change (EStartDocument :: evs' ++ [EEndDocument]) with ([EStartDocument] ++ evs' ++ [EEndDocument]). rewrite feed_app.
  change (feed m (docview i) tb_init [EStartDocument]) with (Some s). cbv iota beta. rewrite feed_app.
  rewrite (feed_same _ _ _ _ F). rewrite (feed_broken m (docview i)) with (top := true) (p := 1%positive) (ks := []); [reflexivity|..].
  - cbn. split; discriminate.
  - eapply document_broken; eassumption.
  - split; [discriminate|]. cbn. auto.
  - exact LV.
  - intros _ (z & Z & _). discriminate.
  - reflexivity.
  - apply evs_short, Hm.
Qed.
