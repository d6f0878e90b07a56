(* An upper bound for all inputs, entities included: nesting is limited, so that
   the number of callbacks is at most a polynomial of degree 21 in the length of
   the input.  The pass is the one of Linear.v with a character worth more the
   more entities can be nested below it. *)
From Verif Require Import Base Utf8 Encoding Scan ScanProofs Parser Term Linear.
From Coq Require Import ZifyBool.
Local Open Scope Z_scope.

Lemma chunks_short : forall n s, (List.length (chunks_fuel n s) <= n)%nat.
Proof. induction n; intros [|c s]; cbn [chunks_fuel]; try (cbn; lia). destruct (decode_rune (c :: s)) as [r w]. cbn [List.length]. pose proof (IHn (skipn w (c :: s))). lia. Qed.
Lemma runes_short : forall s, (List.length (runes_of s) <= List.length s)%nat.
Proof. intros s. unfold runes_of. rewrite map_length. apply chunks_short. Qed.
Lemma encode_short : forall r, (List.length (encode_rune r) <= 4)%nat.
Proof. intros r. unfold encode_rune, enc_raw. repeat match goal with |- context [if ?b then _ else _] => destruct b end; cbn [List.length]; lia. Qed.
Lemma utf8_short : forall l, (List.length (utf8 l) <= 4 * List.length l)%nat.
Proof. induction l as [|a l IH]; [cbn; lia|]. cbn [utf8 flat_map]. rewrite app_length. cbn [List.length]. pose proof (encode_short a). unfold utf8 in IH. lia. Qed.
Lemma decoded_short : forall n s v, decodeEntities_fuel n s = Ret v -> (List.length v <= 4 * n)%nat.
Proof.
  induction n; intros s v Hr; cbn [decodeEntities_fuel] in Hr.
  - destruct s; inversion Hr; cbn; lia.
  - destruct s as [|c t]; [inversion Hr; cbn; lia|]. destruct (has_prefix _ _).
    + destruct (parseStringCharRef (c :: t)) as [[val rest]| | |]; try discriminate. destruct (decodeEntities_fuel n rest) as [out| | |] eqn:Ho; inversion Hr; subst.
      apply IHn in Ho. rewrite app_length. pose proof (encode_short val). lia.
    + destruct (_ =? 37); [discriminate|]. destruct (decodeEntities_fuel n t) as [out| | |] eqn:Ho; inversion Hr; subst. apply IHn in Ho. cbn [List.length]. lia.
Qed.
Lemma takeW_short : forall f l, (List.length (takeW f l) <= List.length l)%nat.
Proof. induction l as [|a l IH]; cbn; [lia|]. destruct (f a); cbn; lia. Qed.
Lemma value_short : forall E, env_ok E -> forall l li v l', parseEntityValue E l = (Ret (li, v), l') -> (List.length v <= 16 * List.length l)%nat.
Proof.
  intros E OK l li v l' Hr. unfold parseEntityValue, pbind, ppeek, padvance, parseEntityValueInternal, pret, pwrap, plift in Hr.
  destruct (_ || _).
  - pose proof (suffix_length _ _ (suffix_advance E OK 1 l)) as Hl.
    match type of Hr with context [takeW ?f (advance E 1 l)] => pose proof (takeW_short f (advance E 1 l)) as Ht; pose proof (utf8_short (takeW f (advance E 1 l))) as Hu end.
    destruct (_ =? _); cbv beta iota in Hr;
      match type of Hr with context [decodeEntities ?x] => destruct (decodeEntities x) as [a| | |] eqn:Ha end; inversion Hr; subst;
      unfold decodeEntities in Ha; apply decoded_short in Ha; lia.
  - cbn in Hr. inversion Hr; subst. cbn; lia.
Qed.

Section W.
Variable E : env.
Hypothesis OK : env_ok E.
Hypothesis DL : forall c l, (List.length (decode E c l) <= List.length l)%nat.
Variable S : Type.
Variable H : handler S.
(* N bounds the length of the input, K the one of replacement texts *)
Variables N K : nat.
Hypothesis NK : (16 * N <= K)%nat.
Definition short (e : event) : Prop :=
  match e with
  | EEntityDecl _ t _ _ v => t = InternalGeneralEntity -> (List.length (runes_of v) <= K)%nat
  | _ => True
  end.
Definition brief (e : ent) : Prop := e_type e = InternalGeneralEntity -> (List.length (runes_of (e_content e)) <= K)%nat.
Variable good : S -> Prop.
Hypothesis GE : forall h v e, good h -> short e -> good (fst (h_event H h v e)).
Hypothesis GG : forall h v n, good h -> good (fst (h_getEntity H h v n)) /\
  (forall e b, snd (h_getEntity H h v n) = Answer (Some (Real e)) b -> brief e).
Hypothesis GP : forall h v n, good h -> good (fst (h_getPEntity H h v n)).
Hypothesis GD : forall h n e, good h -> h_docEntity H h n = Some (Some e) -> brief e.
Hypothesis GO : forall h e v, good h -> good (h_setOrig H h e v).
Hypothesis GA : forall h l p v, good h -> good (fst (h_createAttr H h l p v)).
Hypothesis GN : forall h, good h -> good (h_chunkEnter H h).
Hypothesis GL : forall h h', good h -> good h' -> good (h_chunkLeave H h h').

(* what a character can cause at a depth *)
Definition cost (d : Z) : Z := (Z.of_nat K + 1) ^ (Z.max 0 ((41 - d) / 2)).
Lemma cost_pos : forall d, 1 <= cost d.
Proof. intros d. unfold cost. pose proof (Z.pow_pos_nonneg (Z.of_nat K + 1) (Z.max 0 ((41 - d) / 2))). lia. Qed.
Lemma cost_step : forall d, d <= 39 -> cost (d + 2) * Z.of_nat K + 1 <= cost d.
Proof.
  intros d Hd. pose proof (cost_pos (d + 2)) as Hp. unfold cost in *. replace (Z.max 0 ((41 - d) / 2)) with (Z.succ (Z.max 0 ((41 - (d + 2)) / 2))).
  - rewrite Z.pow_succ_r by lia. nia.
  - replace (41 - (d + 2)) with (41 - d + (-1) * 2) by lia. rewrite Z.div_add by lia. pose proof (Z.div_le_mono 2 (41 - d) 2 ltac:(lia) ltac:(lia)). change (2 / 2) with 1 in *. lia.
Qed.

Notation pst := (pst S).
Notation M := (M S).
Local Notation bind := (@bind S _ _).
Definition len {A} (l : list A) : Z := Z.of_nat (List.length l).
Definition weight (s : pst) : Z := len (tr s) + cost (depth s) * len (inp s).
(* z: in the document itself *)
Definition ready (z : bool) (s : pst) : Prop := good (hs s) /\ (z = true -> depth s = 0 /\ len (inp s) <= Z.of_nat N).
Definition lin (z : bool) {A} (c d : Z) (Q : A -> Prop) (m : M A) : Prop := forall s o s', ready z s -> m s = (o, s') ->
  good (hs s') /\ depth s' = depth s /\ len (inp s') <= len (inp s) /\
  match o with
  | Ret a => Q a /\ weight s' + cost (depth s) * c <= weight s
  | _ => weight s' <= weight s + cost (depth s) * d
  end.
Definition T {A} : A -> Prop := fun _ => True.

Lemma lin_any : forall z A c d (Q : A -> Prop) m, lin false c d Q m -> lin z c d Q m.
Proof. intros z A c d Q m Hm s o s' [Hg _] Hr. apply Hm; auto. split; auto. discriminate. Qed.
Lemma mono : forall d a b, a <= b -> cost d * a <= cost d * b.
Proof. intros d a b Hab. apply Z.mul_le_mono_nonneg_l; auto. pose proof (cost_pos d). lia. Qed.
Lemma lin_weak : forall z A c d c' d' (Q Q' : A -> Prop) m, lin z c d Q m -> c' <= c -> d <= d' -> (forall a, Q a -> Q' a) -> lin z c' d' Q' m.
Proof.
  intros z A c d c' d' Q Q' m Hm Hc Hd HQ s o s' Hz Hr. destruct (Hm _ _ _ Hz Hr) as (Hg & Hd' & Hi & Ho). repeat split; auto.
  pose proof (mono (depth s) _ _ Hc). pose proof (mono (depth s) _ _ Hd). destruct o; try lia. destruct Ho. split; auto. lia.
Qed.
Lemma lin_bind : forall z A B c d c1 d1 (Q1 : A -> Prop) (Q : B -> Prop) m f, lin z c1 d1 Q1 m ->
  (forall a, Q1 a -> lin z (c - c1) (d + c1) Q (f a)) -> d1 <= d -> lin z c d Q (bind m f).
Proof.
  intros z A B c d c1 d1 Q1 Q m f Hm Hf Hd s o s' Hz Hr. unfold Parser.bind in Hr.
  destruct (m s) as [o1 s1] eqn:H1. destruct (Hm _ _ _ Hz H1) as (G1 & D1 & I1 & O1). pose proof (mono (depth s) _ _ Hd).
  destruct o1 as [a|e| |]; try (inversion Hr; subst; repeat split; auto; lia).
  destruct O1 as [Hq O1]. assert (Hz1 : ready z s1). { destruct Hz as [_ Hz]. split; auto. intros Ht. specialize (Hz Ht). rewrite D1. lia. }
  destruct (Hf a Hq _ _ _ Hz1 Hr) as (G2 & D2 & I2 & O2). rewrite D1 in *. repeat split; auto; [lia|].
  destruct o as [b|e| |]; try lia. destruct O2 as [Hqb O2]. split; auto. lia.
Qed.
Lemma lin_bind0 : forall z A B c d (Q1 : A -> Prop) (Q : B -> Prop) m f, 0 <= d -> lin z 0 0 Q1 m -> (forall a, Q1 a -> lin z c d Q (f a)) -> lin z c d Q (bind m f).
Proof.
  intros z A B c d Q1 Q m f Hd Hm Hf. apply lin_bind with (c1 := 0) (d1 := 0) (Q1 := Q1); auto.
  intros a Ha. replace (c - 0) with c by lia. replace (d + 0) with d by lia. auto.
Qed.
(* the input and the trace stay *)
Lemma lin_still : forall z A c d (Q : A -> Prop) (m : M A), c <= 0 -> 0 <= d ->
  (forall s o s', good (hs s) -> m s = (o, s') -> good (hs s') /\ depth s' = depth s /\ inp s' = inp s /\ tr s' = tr s /\ (forall a, o = Ret a -> Q a)) -> lin z c d Q m.
Proof.
  intros z A c d Q m Hc Hd Hm s o s' [Hg _] Hr. destruct (Hm _ _ _ Hg Hr) as (Hg' & Hd' & Hi & Ht & Hq). unfold weight. rewrite Hd', Hi, Ht.
  pose proof (mono (depth s) _ _ Hc). pose proof (mono (depth s) _ _ Hd). repeat split; auto; [lia|]. destruct o; try lia. split; auto. lia.
Qed.
Lemma lin_ret : forall z A c d (Q : A -> Prop) a, c <= 0 -> Q a -> lin z c d Q (ret S a).
Proof.
  intros z A c d Q a Hc Hq s o s' [Hg _] Hr. inversion Hr; subst. pose proof (mono (depth s') _ _ Hc). repeat split; auto; lia.
Qed.
Lemma lin_fail : forall z A c d (Q : A -> Prop) e, 0 <= d -> lin z c d Q (fail S e).
Proof. intros z A c d Q e Hd s o s' [Hg _] Hr. inversion Hr; subst. pose proof (mono (depth s') _ _ Hd). repeat split; auto; lia. Qed.
Lemma lin_failw : forall z A c d (Q : A -> Prop) e, 0 <= d -> lin z c d Q (failw S e).
Proof. intros; apply lin_fail; auto. Qed.
Lemma lin_pan : forall z A c d (Q : A -> Prop), 0 <= d -> lin z c d Q (pan S).
Proof. intros z A c d Q Hd s o s' [Hg _] Hr. inversion Hr; subst. pose proof (mono (depth s') _ _ Hd). repeat split; auto; lia. Qed.
Lemma lin_oof : forall z A c d (Q : A -> Prop), 0 <= d -> lin z c d Q (oof S).
Proof. intros z A c d Q Hd s o s' [Hg _] Hr. inversion Hr; subst. pose proof (mono (depth s') _ _ Hd). repeat split; auto; lia. Qed.
Lemma lin_wrap : forall z A c d (Q : A -> Prop) m, lin z c d Q m -> lin z c d Q (wrap S m).
Proof.
  intros z A c d Q m Hm s o s' Hz Hr. unfold wrap in Hr. destruct (m s) as [o1 s1] eqn:H1. specialize (Hm _ _ _ Hz H1).
  destruct o1; inversion Hr; subst; auto.
Qed.
Lemma lin_get : forall z A (f : pst -> A), lin z 0 0 T (get S f).
Proof. intros z A f. apply lin_still; [lia|lia|]. intros s o s' Hg Hr. inversion Hr; subst. repeat split; auto. Qed.
Lemma lin_modify : forall z f, (forall s, inp (f s) = inp s /\ tr (f s) = tr s /\ depth (f s) = depth s /\ (good (hs s) -> good (hs (f s)))) -> lin z 0 0 T (modify S f).
Proof. intros z f Hf. apply lin_still; [lia|lia|]. intros s o s' Hg Hr. inversion Hr; subst. destruct (Hf s) as (? & ? & ? & ?). repeat split; auto. Qed.
Lemma lin_mlift : forall z A (x : outcome gerr A), lin z 0 0 T (mlift S x).
Proof. intros z A x. apply lin_still; [lia|lia|]. intros s o s' Hg Hr. inversion Hr; subst. repeat split; auto. Qed.
(* the input gets shorter *)
Lemma lin_less : forall z A (c : Z) (Q : A -> Prop) (p : P A), psuf p ->
  (forall l a l', (z = true -> len l <= Z.of_nat N) -> p l = (Ret a, l') -> Q a /\ len l' + c <= len l) -> lin z c 0 Q (lift S p).
Proof.
  intros z A c Q p Hp He s o s' [Hg Hz] Hr. unfold lift in Hr. specialize (Hp (inp s)). assert (Hz' : z = true -> len (inp s) <= Z.of_nat N) by (intros Ht; apply Hz; auto).
  specialize (fun a l' => He (inp s) a l' Hz'). destruct (p (inp s)) as [o1 l1]. inversion Hr; subst.
  cbn [snd] in Hp. apply suffix_length in Hp. assert (Hl : len l1 <= len (inp s)) by (unfold len; lia). unfold weight. cbn [set_inp hs depth inp tr].
  pose proof (mono (depth s) _ _ Hl). repeat split; auto. destruct o; try lia. destruct (He _ _ eq_refl) as [Hq Hc]. split; auto.
  pose proof (mono (depth s) _ _ Hc). lia.
Qed.
Lemma lin_lift : forall z A (p : P A), psuf p -> lin z 0 0 T (lift S p).
Proof.
  intros z A p Hp. apply lin_less; auto. intros l a l' _ Hr. split; [exact I|]. specialize (Hp l). rewrite Hr in Hp. apply suffix_length in Hp. cbn [snd] in Hp. unfold len. lia.
Qed.
Lemma lin_eats : forall z A (p : P A), psuf p -> eats p -> lin z 1 0 T (lift S p).
Proof. intros z A p Hp He. apply lin_less; auto. intros l a l' _ Hr. split; [exact I|]. specialize (He _ _ _ Hr). unfold len. lia. Qed.
Lemma lin_emit_raw : forall z e, short e -> lin z (-1) 1 T (emit_raw S H e).
Proof.
  intros z e He s o s' [Hg _] Hr. unfold emit_raw in Hr. pose proof (GE (hs s) (the_view S s) e Hg He) as Hg'.
  destruct (h_event H (hs s) (the_view S s) e) as [h' r]. cbn [fst] in Hg'. pose proof (cost_pos (depth s)).
  assert (Hw : weight (add_event S h' (e, r) s) = weight s + 1) by (unfold weight, len; cbn [add_event tr inp depth List.length]; lia).
  destruct r; inversion Hr; subst; cbn [add_event hs depth inp]; repeat split; auto; try lia.
Qed.
Lemma lin_emit : forall z e, short e -> lin z (-1) 1 T (emit S H e).
Proof. intros; apply lin_wrap, lin_emit_raw; auto. Qed.
Lemma lin_then_emit : forall z B c d e (Q : B -> Prop) f, short e -> 1 <= d -> (forall a, lin z (c + 1) (d - 1) Q (f a)) -> lin z c d Q (bind (emit S H e) f).
Proof. intros z B c d e Q f He Hd Hf. apply lin_bind with (c1 := -1) (d1 := 1) (Q1 := T); auto. apply lin_emit; auto. Qed.
Lemma lin_last_emit : forall z c d e, short e -> c <= -1 -> 1 <= d -> lin z c d T (emit S H e).
Proof. intros z c d e He Hc Hd. eapply lin_weak; [apply lin_emit; auto|lia|lia|auto]. Qed.
(* the guards that pay for what follows: k characters are gone *)
Lemma lin_paid : forall z B c d k (Q : B -> Prop) (m : M B) s l o s', lin z (c - k) (d + k) Q m -> ready z s -> 0 <= k -> len l + k <= len (inp s) ->
  m (set_inp S l s) = (o, s') ->
  good (hs s') /\ depth s' = depth s /\ len (inp s') <= len (inp s) /\
  match o with Ret a => Q a /\ weight s' + cost (depth s) * c <= weight s | _ => weight s' <= weight s + cost (depth s) * d end.
Proof.
  intros z B c d k Q m s l o s' Hm [Hg Hz] Hk Hl Hr.
  assert (Hz' : ready z (set_inp S l s)). { split; auto. intros Ht. specialize (Hz Ht). cbn [set_inp depth inp]. lia. }
  destruct (Hm _ _ _ Hz' Hr) as (G & D & I1 & O). cbn [set_inp depth inp] in D, I1, O.
  assert (Hw : weight (set_inp S l s) + cost (depth s) * k <= weight s). { unfold weight. cbn [set_inp depth inp tr]. pose proof (mono (depth s) _ _ Hl). lia. }
  repeat split; auto; [lia|]. destruct o; try lia. destruct O. split; auto. lia.
Qed.
Lemma reset : forall s : pst, set_inp S (inp s) s = s. Proof. intros []; reflexivity. Qed.
Lemma lin_consume : forall z B c d p (Q : B -> Prop) f, lin z (c - Z.of_nat (List.length p)) (d + Z.of_nat (List.length p)) Q (f true) -> lin z c d Q (f false) ->
  lin z c d Q (bind (mconsume S p) f).
Proof.
  intros z B c d p Q f Ht Hf s o s' Hz Hr. unfold mconsume, Parser.bind, lift, pconsume in Hr. destruct (has_prefix p (inp s)) eqn:Hp.
  - eapply lin_paid; [exact Ht|exact Hz|lia| |exact Hr]. unfold len. rewrite skipn_length. apply has_length in Hp. lia.
  - rewrite reset in Hr. apply Hf; auto.
Qed.
Lemma lin_at : forall z B c d k x (Q : B -> Prop) f, 0 < k < 60000 -> 0 <= d -> (forall a, lin z (c - 1) (d + 1) Q (f a)) ->
  lin z c d Q (bind (mpeek E S) (fun c0 => if negb (c0 =? k) then failw S x else bind (madvance E S 1) f)).
Proof.
  intros z B c d k x Q f Hk Hd Hf s o s' Hz Hr. unfold mpeek, madvance, Parser.bind, lift, ppeek, padvance in Hr.
  rewrite reset in Hr. destruct (Z.eqb_spec (peek E (inp s)) k) as [Hp|Hp]; cbn [negb] in Hr.
  - destruct (peek_some E OK _ _ Hp Hk) as [t Ht]. rewrite Ht in Hr. change (advance E 1 (k :: t)) with t in Hr.
    eapply lin_paid; [apply (Hf tt)|exact Hz|lia| |exact Hr]. rewrite Ht. unfold len. cbn [List.length]. lia.
  - eapply lin_failw; eauto.
Qed.
Lemma lin_blank : forall z B c d x (Q : B -> Prop) f, 0 <= d -> (forall a, lin z (c - 1) (d + 1) Q (f a)) ->
  lin z c d Q (bind (mpeek E S) (fun c0 => if negb (isBlankCh c0) then failw S x else bind (mskip S) f)).
Proof.
  intros z B c d x Q f Hd Hf s o s' Hz Hr. unfold mpeek, mskip, Parser.bind, lift, ppeek, skipBlanks in Hr.
  rewrite reset in Hr. destruct (isBlankCh (peek E (inp s))) eqn:Hp; cbn [negb] in Hr.
  - eapply lin_paid; [apply Hf|exact Hz|lia| |exact Hr].
    destruct (inp s) as [|a l]. { exfalso. unfold peek in Hp. cbn in Hp. destruct (ok_eofr E OK) as [e|e]; rewrite e in Hp; discriminate. }
    unfold peek in Hp. cbn in Hp. cbn [dropW]. rewrite Hp. pose proof (suffix_length _ _ (suffix_dropW isBlankCh l)). unfold len. cbn [List.length]. lia.
  - eapply lin_failw; eauto.
Qed.
Lemma lin_always : forall z A (m : M A) p, lin z 0 0 T m -> psuf p -> lin z 0 0 T (always S m p).
Proof.
  intros z A m p Hm Hp s o s' Hz Hr. unfold always in Hr. destruct (m s) as [o1 s1] eqn:H1. destruct (Hm _ _ _ Hz H1) as (G & D & I1 & O).
  specialize (Hp (inp s1)). apply suffix_length in Hp. assert (Hl : len (snd (p (inp s1))) <= len (inp s1)) by (unfold len; lia).
  assert (weight (set_inp S (snd (p (inp s1))) s1) <= weight s1) by (unfold weight; cbn [set_inp inp tr depth]; pose proof (mono (depth s1) _ _ Hl); lia).
  destruct o1 as [a|e| |]; inversion Hr; subst; cbn [set_inp hs depth inp]; repeat split; auto; try lia.
Qed.
Lemma lin_look : forall z A c d (Q : A -> Prop) (f : pst -> M A), (forall s, lin z c d Q (f s)) -> lin z c d Q (fun s => f s s).
Proof. intros z A c d Q f Hf s o s' Hz Hr. exact (Hf s s o s' Hz Hr). Qed.

Hint Resolve psuf_advance psuf_peek psuf_peekn psuf_has psuf_consume psuf_skip psuf_bpeek psuf_bclose psuf_skipb psuf_scanName
  psuf_name psuf_ncname psuf_nmtoken psuf_qname psuf_charref psuf_pitarget psuf_adv psuf_childrenDecl psuf_mixed psuf_content psuf_pi psuf_comment
  psuf_chardata psuf_xmldecl psuf_entityvalue psuf_elementdecl psuf_attrtype : scan.
Ltac emitted := solve [exact I | unfold short; repeat match goal with |- context [if ?b then _ else _] => destruct b end; exact I | intros Hx; discriminate Hx].
Ltac mon0 := first [eassumption | apply lin_get | apply lin_mlift | (apply lin_modify; intros; repeat split; auto; fail)
  | (apply lin_wrap; eassumption) | (unfold mpeek, mpeekn, madvance, mhas, mskip, mdone; first [apply lin_get | apply lin_lift; solve [pauto]])].
Ltac mon := first [mon0 | apply lin_any; mon0].
Ltac known_length := repeat match goal with |- context [List.length (s_ ?x)] =>
  let v := eval vm_compute in (List.length (s_ x)) in change (List.length (s_ x)) with v end.
Ltac lstep :=
  match goal with
  | |- lin _ _ _ _ (let _ := _ in _) => cbv zeta
  | |- lin _ _ _ _ (Parser.bind _ (emit _ _ _) _) => apply lin_then_emit; [try emitted|lia|intros _]
  | |- lin _ _ _ _ (Parser.bind _ (mconsume _ _) _) => apply lin_consume; known_length
  | |- lin _ _ _ _ (Parser.bind _ (mpeek _ _) _) => first [apply lin_at; [lia|lia|intros _] | apply lin_blank; [lia|intros _]]
  | |- lin _ _ _ _ (Parser.bind _ (ret _ _) _) => eapply lin_bind0 with (Q1 := T); [lia|apply lin_ret; [lia|exact I]|intros ? _]
  | |- lin _ _ _ _ (Parser.bind _ (if _ then _ else _) _) => eapply lin_bind0 with (Q1 := T); [lia| |intros ? _]
  | |- lin _ _ _ _ (Parser.bind _ (Parser.bind _ _ _) _) => eapply lin_bind0 with (Q1 := T); [lia| |intros ? _]
  | |- lin _ _ _ _ (Parser.bind _ _ _) => eapply lin_bind0; [lia|solve [mon]|intros ? _]
  | |- lin _ _ _ _ (if true then _ else _) => cbv iota
  | |- lin _ _ _ _ (if false then _ else _) => cbv iota
  | |- lin _ _ _ _ (if negb true then _ else _) => cbn [negb]
  | |- lin _ _ _ _ (if negb false then _ else _) => cbn [negb]
  | |- lin _ _ _ _ (if ?b then _ else _) => destruct b
  | |- lin _ _ _ _ (match ?x with _ => _ end) => destruct x
  | |- lin _ _ _ _ (ret _ _) => apply lin_ret; [lia|try exact I]
  | |- lin _ _ _ _ (failw _ _) => apply lin_failw; lia
  | |- lin _ _ _ _ (fail _ _) => apply lin_fail; lia
  | |- lin _ _ _ _ (pan _) => apply lin_pan; lia
  | |- lin _ _ _ _ (oof _) => apply lin_oof; lia
  | |- lin _ _ _ _ (emit _ _ _) => apply lin_last_emit; [try emitted|lia|lia]
  | |- lin _ _ _ _ _ => eapply lin_weak; [solve [mon]|lia|lia|auto]
  end.
Ltac lauto := repeat lstep.

Lemma lin_parsePI : lin false 0 0 T (parsePI E S H).
Proof. unfold parsePI. eapply lin_bind with (c1 := 1) (d1 := 0); [apply lin_eats; auto using eats_pi with scan|intros td _|lia]. lauto. Qed.
Lemma lin_parseComment : lin false 0 0 T (parseComment E S H).
Proof. unfold parseComment. eapply lin_bind with (c1 := 1) (d1 := 0); [apply lin_eats; auto using eats_comment with scan|intros td _|lia]. lauto. Qed.
Lemma lin_areBlanks : forall t, lin false 0 0 T (areBlanks E S H t).
Proof. intros t. apply (lin_get _ _ (fun s => _)). Qed.
Lemma lin_parseCharData : forall b, lin false 0 0 T (parseCharData E S H b).
Proof.
  intros b. unfold parseCharData. eapply lin_bind with (c1 := 1) (d1 := 0); [apply lin_eats; auto using eats_chardata with scan|intros t _|lia].
  destruct b; [lauto|]. eapply lin_bind0; [lia|apply lin_areBlanks|intros b _]. lauto.
Qed.
Lemma lin_parseCDSect : lin false 0 0 T (parseCDSect E S H).
Proof. pose proof (lin_parseCharData true). unfold parseCDSect. lauto. Qed.
Lemma lin_queryEntity : forall z n, lin z 0 0 (fun a => forall e, fst a = Some (Real e) -> brief e) (queryEntity S H n).
Proof.
  intros z n. apply lin_still; [lia|lia|]. intros s o s' Hg Hr. unfold queryEntity in Hr. destruct (GG (hs s) (the_view S s) n Hg) as [Hg' G].
  destruct (h_getEntity H (hs s) (the_view S s) n) as [h' a]. cbn [fst snd] in Hg', G.
  destruct a as [e err|]; inversion Hr; subst; repeat split; auto; try discriminate.
  intros a [= <-] e0 He0. cbn [fst] in He0. subst. eapply G; eauto.
Qed.
Lemma lin_queryPEntity : forall z n, lin z 0 0 T (queryPEntity S H n).
Proof.
  intros z n. apply lin_still; [lia|lia|]. intros s o s' Hg Hr. unfold queryPEntity in Hr. pose proof (GP (hs s) (the_view S s) n Hg) as Hg'.
  destruct (h_getPEntity H (hs s) (the_view S s) n) as [h' a]. destruct a as [e err|]; inversion Hr; subst; repeat split; auto.
Qed.
Lemma lin_getEntity : forall z n, lin z 0 0 (fun a => forall e, a = Some e -> brief e) (getEntity S H n).
Proof.
  intros z n. apply lin_still; [lia|lia|]. intros s o s' Hg Hr. unfold getEntity in Hr.
  destruct (inSubset s =? 0); [inversion Hr; subst; repeat split; auto; intros a [= <-] e; discriminate|].
  pose proof (fun e => GD (hs s) n e Hg) as G. destruct (h_docEntity H (hs s) n) as [r|]; inversion Hr; subst; repeat split; auto; try discriminate.
  intros a [= <-] e ->. apply G; auto.
Qed.
Lemma lin_parseEntityRef : lin false 1 0 brief (parseEntityRef E S H).
Proof.
  unfold parseEntityRef. apply lin_at; [lia|lia|intros _]. lstep.
  apply lin_at; [lia|lia|intros _]. destruct (predefined a) as [v|].
  { apply lin_ret; [lia|]. intros Hx. discriminate Hx. }
  eapply lin_bind0; [lia|apply lin_queryEntity|intros q Hq]. destruct (negb (snd q)).
  - destruct (fst q) as [[e|z]|] eqn:Hf; [|lauto|lauto]. apply lin_ret; [lia|]. exact (Hq e Hf).
  - eapply lin_bind0 with (Q1 := fun a => forall e, a = Some e -> brief e); [lia| |intros me Hme].
    { destruct (fst q). apply lin_ret; [lia|discriminate]. apply lin_getEntity. }
    destruct me as [e|].
    + destruct (_ =? _); [lauto|]. destruct (_ =? _); [lauto|]. apply lin_ret; [lia|]. exact (Hme e eq_refl).
    + lstep. lstep. lstep; [lauto|]. lstep. destruct (_ =? 0); lauto.
Qed.
Lemma lin_attrValueLoop : forall n q nm b sp k, lin false 0 0 T (attrValueLoop E S H n q nm b sp k).
Proof.
  pose proof lin_parseEntityRef as He.
  induction n; intros; cbn [attrValueLoop]; [lauto|].
  eapply lin_bind0; [lia|mon|intros c _]. destruct (_ || _ || _); [lauto|]. destruct (_ =? 38).
  - eapply lin_bind0; [lia|mon|intros c2 _]. destruct (_ =? 35).
    + eapply lin_bind0 with (Q1 := T); [lia|apply lin_wrap; mon|intros r _]. apply IHn.
    + eapply lin_bind0 with (Q1 := T); [lia|eapply lin_weak; [apply lin_wrap, He|lia|lia|intros; exact I]|intros r _]. apply IHn.
  - destruct (_ || _ || _ || _); (eapply lin_bind0; [lia|mon|intros ? _]); apply IHn.
Qed.
Lemma lin_internal : forall n q nm, lin false 0 0 T (parseAttributeValueInternal E S H n q nm).
Proof. intros; apply lin_attrValueLoop. Qed.
Lemma lin_parseAttributeValue : forall n nm, lin false 0 0 T (parseAttributeValue E S H n nm).
Proof.
  intros n nm. unfold parseAttributeValue. eapply lin_bind0; [lia|mon|intros q _]. destruct (_ || _); [|lauto].
  eapply lin_bind0; [lia|mon|intros ? _]. apply lin_always. apply lin_internal.
  intros l. cbn [snd]. destruct (_ =? _). apply suffix_advance; auto. apply suffix_refl.
Qed.
Lemma lin_parseAttribute : forall n e, lin false 0 0 T (parseAttribute E S H n e).
Proof.
  intros n e. pose proof (lin_parseAttributeValue n) as Hv. unfold parseAttribute. lstep. destruct a as [l p]. lstep. cbv zeta. lstep. lstep. lstep.
  eapply lin_bind0; [lia|apply lin_wrap, Hv|intros ve _]. destruct (_ && _); lauto.
Qed.
Lemma lin_afterNSDecl : lin false 0 0 T (afterNSDecl E S).
Proof. unfold afterNSDecl. eapply lin_bind0; [lia|mon|intros c _]. lauto. Qed.
Lemma lin_attrLoop : forall n l a k, lin false 0 0 T (attrLoop E S H n l a k).
Proof.
  pose proof lin_afterNSDecl as Hns.
  induction n; intros; cbn [attrLoop]; [lauto|]. pose proof (lin_parseAttribute n l) as Ha.
  lstep. eapply lin_bind0; [lia|mon|intros c _]. destruct (_ =? 62); [lauto|]. lstep. destruct (_ && _); [lauto|].
  eapply lin_bind0; [lia|mon|intros [[an ap] av] _]. cbv zeta.
  repeat first [apply IHn | lstep].
Qed.
Lemma lin_parseStartTag : forall n, lin false 0 0 T (parseStartTag E S H n).
Proof.
  intros n. pose proof (lin_attrLoop n) as Ha. unfold parseStartTag. lstep. lstep. destruct a as [local prefix]. destruct local as [|x local]; [lauto|].
  eapply lin_bind0; [lia|apply Ha|intros r _]. destruct r as [at0 nb]. lauto.
Qed.
Lemma lin_parseEndTag : lin false 0 0 T (parseEndTag E S H).
Proof.
  unfold parseEndTag. apply lin_consume; change (List.length (s_ "/>")) with 2%nat.
  - lstep. eapply lin_bind0 with (Q1 := T); [lia|apply lin_ret; [lia|exact I]|intros _ _]. lauto.
  - lstep. eapply lin_bind with (c1 := 1) (d1 := 0) (Q1 := T); [|intros _ _; lauto|lia].
    apply lin_consume; change (List.length (s_ "</")) with 2%nat; [|lauto]. cbn [negb]. destruct a as [|e l]; [lauto|].
    apply lin_consume; [|lauto]. cbn [negb]. eapply lin_bind0; [lia|mon|intros c _]. lauto.
Qed.
Lemma lin_parseElement : forall n m, lin false 0 0 T m -> lin false 0 0 T (parseElement E S H n m).
Proof. intros n m Hm. pose proof (lin_parseStartTag n). pose proof lin_parseEndTag. unfold parseElement. lauto. Qed.
(* the content of an entity, and the report of the reference *)
Lemma lin_chunk : forall m c e, lin false 0 0 T m -> (List.length (runes_of c) <= K)%nat ->
  lin false (-1) 1 T (bind (parseBalancedChunk S H m c) (fun _ => emit_raw S H (EReference e))).
Proof.
  intros m c e Hm Hc s o s' [Hg _] Hr. unfold Parser.bind, parseBalancedChunk in Hr. pose proof (cost_pos (depth s)) as Hp.
  destruct (40 <? depth s + 1) eqn:Hd. { inversion Hr; subst. repeat split; auto; lia. }
  pose proof (cost_step (depth s) ltac:(lia)) as Hs.
  match type of Hr with (let '(_, _) := (let '(_, _) := m ?z in _) in _) = _ => set (s0 := z) in Hr end.
  destruct (m s0) as [o1 s1] eqn:H1.
  assert (Hz : ready false s0) by (split; [apply GN; auto|discriminate]).
  destruct (Hm _ _ _ Hz H1) as (G1 & D1 & I1 & O1).
  assert (Ht : len (tr s1) <= len (tr s) + cost (depth s + 2) * Z.of_nat K).
  { assert (Hw : weight s1 <= weight s0) by (destruct o1; [destruct O1| | |]; lia). unfold weight in Hw. rewrite D1 in Hw.
    change (depth s0) with (depth s + 1 + 1) in Hw. replace (depth s + 1 + 1) with (depth s + 2) in Hw by lia. change (tr s0) with (tr s) in Hw.
    change (inp s0) with (runes_of c) in Hw. assert (0 <= len (inp s1)) by (unfold len; lia). assert (len (runes_of c) <= Z.of_nat K) by (unfold len; lia).
    pose proof (mono (depth s + 2) 0 (len (inp s1)) ltac:(lia)). pose proof (mono (depth s + 2) _ _ H2). lia. }
  cbv beta iota in Hr. match type of Hr with context [hs s1] => idtac end.
  match type of Hr with context [?r] => match type of r with Parser.pst S => match r with context [h_chunkLeave] => set (s2 := r) in Hr end end end.
  assert (G2 : good (hs s2)) by (apply GL; auto).
  assert (W2 : weight s2 <= weight s + cost (depth s + 2) * Z.of_nat K).
  { unfold weight. change (tr s2) with (tr s1). change (inp s2) with (inp s). change (depth s2) with (depth s). lia. }
  destruct o1 as [[]|x| |]; try (inversion Hr; subst; repeat split; auto; try (change (inp s2) with (inp s)); lia).
  unfold emit_raw in Hr. pose proof (GE (hs s2) (the_view S s2) (EReference e) G2 I) as G3.
  destruct (h_event H (hs s2) (the_view S s2) (EReference e)) as [h' r]. cbn [fst] in G3.
  assert (W3 : weight (add_event S h' (EReference e, r) s2) <= weight s + cost (depth s)).
  { unfold weight, len in *. cbn [add_event tr inp depth List.length]. lia. }
  destruct r; inversion Hr; subst; cbn [add_event hs depth inp]; change (depth s2) with (depth s); change (inp s2) with (inp s); repeat split; auto; try lia.
Qed.
Lemma lin_parseReference : forall m, lin false 0 0 T m -> lin false 0 0 T (parseReference E S H m).
Proof.
  intros m Hm. unfold parseReference. eapply lin_bind0; [lia|mon|intros c _]. lstep; [lauto|]. lstep. lstep.
  - eapply lin_bind with (c1 := 1) (d1 := 0); [apply lin_wrap, lin_eats; auto using eats_charref with scan|intros v _|lia]. lauto.
  - eapply lin_bind with (c1 := 1) (d1 := 0); [apply lin_wrap, lin_parseEntityRef|intros e He|lia].
    destruct (_ || _); [lauto|]. lstep; [lauto|]. destruct (Z.eqb_spec (e_type e) InternalGeneralEntity) as [Ht|Ht]; [|lauto].
    apply lin_chunk; auto.
Qed.
Lemma lin_parseContent : forall n, lin false 0 0 T (parseContent E S H n).
Proof.
  induction n; cbn [parseContent]; [lauto|]. pose proof lin_parsePI. pose proof lin_parseCDSect. pose proof lin_parseComment.
  pose proof (lin_parseElement n _ IHn). pose proof (lin_parseReference _ IHn). pose proof (lin_parseCharData false).
  lstep. destruct a; [lauto|]. apply (lin_look _ _ 0 0 T (fun s => _)). intros s. cbv zeta. lauto.
Qed.
Lemma lin_parseMisc : forall n, lin false 0 0 T (parseMisc E S H n).
Proof.
  induction n; cbn [parseMisc]; [lauto|]. pose proof lin_parsePI. pose proof lin_parseComment.
  lstep. destruct a; [lauto|]. apply (lin_look _ _ 0 0 T (fun s => _)). intros s. cbv zeta. lauto.
Qed.
(* ---- the internal subset ---- *)
Lemma lin_parseDocTypeDecl : lin true 1 0 T (parseDocTypeDecl E S H).
Proof. unfold parseDocTypeDecl. repeat first [lstep | eapply lin_bind0; [lia|mon|intros ? _]]. Qed.
Lemma lin_parsePEReference : lin true 0 0 T (parsePEReference E S H).
Proof.
  unfold parsePEReference. repeat first [lstep | (eapply lin_bind0; [lia|apply lin_queryPEntity|intros ? _]) | (eapply lin_bind0; [lia|mon|intros ? _])].
Qed.
Lemma lin_parseElementDecl : forall n, lin true 0 0 T (parseElementDecl E S H n).
Proof.
  intros n. unfold parseElementDecl. eapply lin_bind with (c1 := 1) (d1 := 0); [apply lin_eats; auto using eats_elementdecl with scan|intros [[a b] c] _|lia]. lauto.
Qed.
Lemma lin_unquoted : forall x, lin true (-1) 1 T (unquotedEntity E S H x).
Proof. intros x. unfold unquotedEntity. repeat first [lstep | (eapply lin_bind0; [lia|mon|intros ? _])]. Qed.
Lemma lin_entityValue : lin true 0 0 (fun r => forall li v, r = inr (li, v) -> (List.length (runes_of v) <= K)%nat) (lift S (ptry (parseEntityValue E))).
Proof.
  apply lin_less; [pauto|]. intros l r l' Hl Hr. assert (Hs : psuf (ptry (parseEntityValue E))) by pauto. specialize (Hs l). rewrite Hr in Hs. cbn [snd] in Hs. apply suffix_length in Hs.
  split; [|unfold len; lia]. intros li v ->. specialize (Hl eq_refl). unfold len in Hl. pose proof (value_short E OK l li v l') as Hv.
  assert (parseEntityValue E l = (Ret (li, v), l')). { unfold ptry in Hr. destruct (parseEntityValue E l) as [[x|x| |] l2]; inversion Hr; subst; auto. }
  specialize (Hv H0). pose proof (runes_short v). lia.
Qed.
Lemma lin_parseEntityDecl : lin true 0 0 T (parseEntityDecl E S H).
Proof.
  unfold parseEntityDecl. lstep; [|lauto]. cbn [negb]. lstep. lstep; [lauto|]. eapply lin_bind0; [lia|mon|intros c _].
  lstep. { lauto. } lstep. lstep; [lauto|]. lstep. lstep; [lauto|]. eapply lin_bind0; [lia|mon|intros c2 _].
  eapply lin_bind with (c1 := -1) (d1 := 1) (Q1 := T); [| |lia].
  { destruct (_ || _).
    - eapply lin_bind0; [lia|apply lin_entityValue|intros [x|[li v]] Hv]; [lauto|]. apply lin_then_emit; [intros _; exact (Hv li v eq_refl)|lia|intros _]. lauto.
    - destruct a0.
      + lauto.
      + eapply lin_bind with (c1 := -1) (d1 := 1); [apply lin_unquoted|intros ? _|lia]. lauto. }
  intros lit _. lstep. apply lin_at; [lia|lia|intros _].
  eapply lin_bind0 with (Q1 := T); [lia| |intros q _].
  { destruct a0; [apply lin_queryPEntity|]. eapply lin_weak; [apply lin_queryEntity|lia|lia|intros; exact I]. }
  lauto. eapply lin_weak; [apply lin_modify; intros s; cbn [set_hs inp tr depth hs]; repeat split; auto|lia|lia|auto].
Qed.
Lemma lin_parseDefaultDecl : forall n, lin true 0 0 T (parseDefaultDecl E S H n).
Proof.
  intros n. pose proof (lin_internal n) as Hi. unfold parseDefaultDecl.
  lstep; [lauto|]. lstep; [lauto|]. apply lin_consume; known_length; cbv iota.
  all: repeat first [lstep | (eapply lin_bind0; [lia|apply lin_any, lin_wrap, Hi|intros ? _]) | (eapply lin_bind0; [lia|mon|intros ? _])].
Qed.
Lemma lin_addDefault : forall e a v, lin true 0 0 T (addAttributeDefault S H e a v).
Proof.
  intros e a v. unfold addAttributeDefault. lstep. destruct (lookupSpecial _ _); [lauto|]. destruct (prefix_local a) as [p l].
  apply lin_still; [lia|lia|]. intros s o s' Hg Hr. pose proof (GA (hs s) l p v Hg) as Hg'.
  destruct (h_createAttr H (hs s) l p v) as [h' x]. destruct x; inversion Hr; subst; repeat split; auto.
Qed.
Lemma lin_attlistLoop : forall n e, lin true 0 0 T (attlistLoop E S H n e).
Proof.
  induction n; intros e; cbn [attlistLoop]; [lauto|]. pose proof (lin_parseDefaultDecl n) as Hd. pose proof lin_addDefault as Ha.
  eapply lin_bind0; [lia|mon|intros c _]. destruct (_ =? 62); [lauto|]. lstep. lstep. lstep. destruct a0 as [typ enum].
  lstep. lstep. destruct a0 as [def dv].
  repeat first [apply IHn | lstep | (eapply lin_weak; [apply Ha|lia|lia|auto]) | (eapply lin_bind0; [lia|mon|intros ? _])].
  all: eapply lin_weak; [apply IHn|lia|lia|auto].
Qed.
Lemma lin_parseAttlist : forall n, lin true 0 0 T (parseAttributeListDecl E S H n).
Proof.
  intros n. pose proof (lin_attlistLoop n) as Hl. unfold parseAttributeListDecl.
  repeat first [lstep | (eapply lin_weak; [apply Hl|lia|lia|auto])].
Qed.
Lemma lin_parseMarkupDecl : forall n, lin true 0 0 T (parseMarkupDecl E S H n).
Proof.
  intros n. pose proof (lin_parseElementDecl n). pose proof lin_parseEntityDecl. pose proof (lin_parseAttlist n). pose proof lin_parseComment.
  pose proof lin_parsePI. pose proof lin_parsePEReference. unfold parseMarkupDecl.
  apply (lin_look _ _ 0 0 T (fun s => _)). intros s. cbv zeta. lauto.
Qed.
Lemma lin_subsetLoop : forall n, lin true 0 0 T (subsetLoop E S H n).
Proof.
  induction n; cbn [subsetLoop]; [lauto|]. pose proof (lin_parseMarkupDecl n). pose proof lin_parsePEReference.
  lstep. eapply lin_bind0; [lia|mon|intros ? _]. lauto.
Qed.
Lemma lin_parseInternalSubset : forall n, lin true 0 0 T (parseInternalSubset E S H n).
Proof.
  intros n. pose proof (lin_subsetLoop n). unfold parseInternalSubset. repeat first [lstep | (eapply lin_bind0; [lia|mon|intros ? _])].
Qed.
Lemma lin_parseDTD : forall n, lin true 0 0 T (parseDTD E S H n).
Proof.
  intros n. pose proof (lin_parseInternalSubset n). pose proof (lin_parseMisc n). unfold parseDTD. lstep.
  eapply lin_bind with (c1 := 1) (d1 := 0); [apply lin_wrap, lin_parseDocTypeDecl|intros ? _|lia]. lauto.
Qed.
Lemma lin_switch : forall d, lin true 0 0 T (switchEncoding E S d).
Proof.
  intros d s o s' [Hg Hz] Hr. unfold switchEncoding in Hr. destruct (Load _ _) as [c|]; inversion Hr; subst; cbn [set_inp hs depth inp]; repeat split; auto; try lia.
  - pose proof (DL c (inp s)). unfold len; lia.
  - unfold weight. cbn [set_inp inp tr depth]. pose proof (DL c (inp s)). pose proof (mono (depth s) (len (decode E c (inp s))) (len (inp s)) ltac:(unfold len; lia)). lia.
Qed.
Lemma lin_parseDocument : forall n, lin true (-3) 3 T (parseDocument E S H n).
Proof.
  intros n. pose proof lin_switch as Hs. pose proof (lin_parseMisc n) as Hm. pose proof (lin_parseDTD n) as Hd.
  pose proof (lin_parseElement n _ (lin_parseContent n)) as He.
  unfold parseDocument. lstep. eapply lin_bind0 with (Q1 := T); [lia| |intros det _].
  { intros s o s' [Hg Hz] Hr. destruct (detectEncoding (inp s)) as [[enc rest]|] eqn:Hx; inversion Hr; subst; [|repeat split; auto; lia].
    apply detect_suffix in Hx. apply suffix_length in Hx. cbn [set_inp hs depth inp]. repeat split; auto; [unfold len; lia|].
    unfold weight. cbn [set_inp inp tr depth]. pose proof (mono (depth s) (len rest) (len (inp s)) ltac:(unfold len; lia)). lia. }
  lstep. lstep; [lauto|]. lstep. lstep. { lauto. }
  eapply lin_bind0; [lia|apply lin_wrap, Hs|intros ? _].
  repeat first [lstep | (eapply lin_bind0; [lia|mon|intros ? _])].
Qed.
Lemma Parse_power : forall n h bytes, good h -> (List.length bytes <= N)%nat ->
  Z.of_nat (List.length (tr (snd (Parse E S H n h bytes)))) <= (Z.of_nat K + 1) ^ 20 * (Z.of_nat (List.length bytes) + 3).
Proof.
  intros n h bytes Hg HN. destruct (Parse E S H n h bytes) as [o s] eqn:Hr. cbn [snd]. unfold Parse in Hr.
  assert (Hz : ready true (init S h bytes)). { split; auto. intros _. cbn [init depth inp]. unfold len. split; [reflexivity|lia]. }
  destruct (lin_parseDocument n _ _ _ Hz Hr) as (_ & Hd & _ & Ho). cbn [init depth] in Hd, Ho.
  assert (Hw : weight s <= weight (init S h bytes) + cost 0 * 3) by (destruct o; [destruct Ho| | |]; lia).
  unfold weight in Hw. rewrite Hd in Hw. cbn [init depth inp tr] in Hw. change ((Z.of_nat K + 1) ^ 20) with (cost 0).
  pose proof (cost_pos 0) as Hp. clear Ho. generalize dependent (cost 0). clear. intros k Hw Hp. unfold len in Hw. cbn [List.length] in Hw.
  assert (0 <= k * Z.of_nat (List.length (inp s))) by (apply Z.mul_nonneg_nonneg; lia). lia.
Qed.
End W.
