(* Errors of Parser.v carry at most one layer of ErrParseError, and everything
   that parseDocument returns carries exactly one. *)
From Verif Require Import Base Utf8 Encoding Scan ScanProofs Parser Effects.

Section W.
Variable E : env.
Variable S : Type.
Variable H : handler S.
Notation M := (M S).

Definition shp {A} (m : M A) : Prop := forall s, shape (fst (m s)).
Definition wrp {A} (m : M A) : Prop := forall s, match fst (m s) with Fail e => wrapped e = true | _ => True end.

Lemma lexical_shape : forall A (o : outcome gerr A), lexical o -> shape o.
Proof. intros A [a|e| |]; simpl; auto. apply nohandler_shaped. Qed.
Lemma resp_shape : forall A (o : outcome gerr A) evs, resp o evs -> shape o.
Proof.
  intros A o evs [[_ G]|[(e&k&r&_&_&[->| ->])|(e&r&_&_&->)]]; simpl; auto. apply lexical_shape; auto.
Qed.
Lemma shp_eff : forall T A (m : M A), eff T m -> shp m.
Proof. intros T A m Hm s. destruct (Hm s) as (evs & _ & _ & H3 & _). eapply resp_shape; eauto. Qed.
Lemma shp_starts : forall m, starts S m -> shp m.
Proof. intros m Hm s. destruct (Hm s) as (evs & _ & H3 & _). eapply resp_shape; eauto. Qed.

Lemma wrp_wrap : forall A (m : M A), shp m -> wrp (wrap S m).
Proof. intros A m Hm s. unfold wrap. specialize (Hm s). destruct (m s) as [[a|e| |] s']; simpl in *; auto. apply shaped_ctx; auto. Qed.
Lemma wrp_shp : forall A (m : M A), wrp m -> shp m.
Proof. intros A m Hm s. specialize (Hm s). destruct (fst (m s)); simpl; auto. apply wrapped_shaped; auto. Qed.
Lemma wrp_bind : forall A B (m : M A) (f : A -> M B), wrp m -> (forall a, wrp (f a)) -> wrp (bind S m f).
Proof. intros A B m f Hm Hf s. unfold bind. specialize (Hm s). destruct (m s) as [[a|e| |] s']; simpl in *; auto. apply Hf. Qed.
Lemma shp_bind : forall A B (m : M A) (f : A -> M B), shp m -> (forall a, shp (f a)) -> shp (bind S m f).
Proof. intros A B m f Hm Hf s. unfold bind. specialize (Hm s). destruct (m s) as [[a|e| |] s']; simpl in *; auto. apply Hf. Qed.
Lemma shp_wrap : forall A (m : M A), shp m -> shp (wrap S m).
Proof. intros; apply wrp_shp, wrp_wrap; auto. Qed.
Lemma shp_lift : forall A (p : P A), plex p -> shp (lift S p).
Proof. intros A p Hp s. unfold lift. specialize (Hp (inp s)). destruct (p (inp s)); simpl in *. apply lexical_shape; auto. Qed.
Lemma wrp_ret : forall A (a : A), wrp (ret S a). Proof. intros A a s; exact I. Qed.
Lemma wrp_failw : forall A k, wrp (@failw S A k). Proof. intros A k s; reflexivity. Qed.
Lemma wrp_get : forall A (f : pst S -> A), wrp (get S f). Proof. intros A f s; exact I. Qed.
Lemma wrp_modify : forall f, wrp (modify S f). Proof. intros f s; exact I. Qed.
Lemma wrp_fun : forall A (g : pst S -> A) h, wrp (fun s => (Ret (g s), h s)). Proof. intros A g h s; exact I. Qed.
Lemma shp_emit_raw : forall e, shp (emit_raw S H e).
Proof. intros e s. unfold emit_raw. destruct (h_event _ _ _ _) as [h' []]; simpl; auto. Qed.
Lemma wrp_emit : forall e, wrp (emit S H e).
Proof. intros; apply wrp_wrap, shp_emit_raw. Qed.

Lemma shp_peek : wrp (mpeek E S). Proof. intros s; exact I. Qed.
Lemma shp_adv : forall n, wrp (madvance E S n). Proof. intros n s; exact I. Qed.
Lemma shp_has : forall p, wrp (mhas S p). Proof. intros n s; exact I. Qed.
Lemma shp_skip : wrp (mskip S). Proof. intros s; exact I. Qed.
Lemma shp_done : wrp (mdone S). Proof. intros s; exact I. Qed.
Lemma shp_consume : forall p, wrp (mconsume S p).
Proof. intros p s; unfold mconsume, lift, pconsume. destruct (has_prefix _ _); exact I. Qed.
Lemma shp_queryE : forall n, wrp (queryEntity S H n).
Proof. intros n s; unfold queryEntity. destruct (h_getEntity _ _ _ _) as [h []]; exact I. Qed.
Lemma shp_queryP : forall n, wrp (queryPEntity S H n).
Proof. intros n s; unfold queryPEntity. destruct (h_getPEntity _ _ _ _) as [h []]; exact I. Qed.
Lemma wrp_lift_wrap : forall A (p : P A), plex p -> wrp (lift S (pwrap p)).
Proof.
  intros A p Hp s. unfold lift, pwrap. specialize (Hp (inp s)).
  destruct (p (inp s)) as [[a|e| |] l]; simpl in *; auto. apply shaped_ctx, nohandler_shaped; auto.
Qed.

Lemma shp_PI : shp (parsePI E S H).
Proof. unfold parsePI. apply shp_bind; [apply shp_lift; auto with scan|intros; apply wrp_shp, wrp_emit]. Qed.
Lemma shp_comment : shp (parseComment E S H).
Proof. unfold parseComment. apply shp_bind; [apply shp_lift; auto with scan|intros; apply wrp_shp, wrp_emit]. Qed.
Lemma shp_element : forall n, shp (parseElement E S H n (parseContent E S H n)).
Proof. intros n. apply (shp_eff TForest), eff_element, eff_content. Qed.

Lemma wrp_misc : forall n, wrp (parseMisc E S H n).
Proof.
  induction n; [intros s; exact I|]. cbn [parseMisc]. apply wrp_bind; [apply shp_done|]. intros [|]; [apply wrp_ret|].
  intros s. cbv zeta. destruct (has_prefix (s_ "<?") (inp s)).
  { revert s. change (wrp (bind S (wrap S (parsePI E S H)) (fun _ => parseMisc E S H n))).
    apply wrp_bind; auto. apply wrp_wrap, shp_PI. }
  destruct (has_prefix (s_ "<!--") (inp s)).
  { revert s. change (wrp (bind S (wrap S (parseComment E S H)) (fun _ => parseMisc E S H n))).
    apply wrp_bind; auto. apply wrp_wrap, shp_comment. }
  destruct (isBlankCh _); [|exact I].
  revert s. change (wrp (bind S (mskip S) (fun _ => parseMisc E S H n))). apply wrp_bind; auto. apply shp_skip.
Qed.

Lemma shp_fail : forall A k, shp (@fail S A (Plain k)). Proof. intros A k s; reflexivity. Qed.
Lemma shp_pan : forall A, shp (@pan S A). Proof. intros A s; exact I. Qed.
Lemma shp_oof : forall A, shp (@oof S A). Proof. intros A s; exact I. Qed.
Lemma shp_mlift : forall A (o : outcome gerr A), lexical o -> shp (mlift S o).
Proof. intros A o Ho s. apply lexical_shape; auto. Qed.

Ltac sauto := repeat (first
  [ solve [auto with scan | apply shp_PI | apply shp_comment | apply shp_fail | apply shp_pan | apply shp_oof
          | apply wrp_shp; first [apply wrp_ret | apply wrp_failw | apply wrp_get | apply wrp_modify | apply wrp_emit | apply shp_peek | apply shp_adv
                                 | apply shp_has | apply shp_skip | apply shp_done | apply shp_consume | apply shp_queryE | apply shp_queryP ]
          | apply shp_lift; auto with scan ]
  | match goal with
    | |- forall _, _ => intro
    | |- shp (bind _ _ _) => apply shp_bind
    | |- shp (wrap _ _) => apply shp_wrap
    | |- shp (if ?b then _ else _) => destruct b
    | |- shp (let '(_, _) := ?x in _) => destruct x
    | |- shp (match ?x with _ => _ end) => destruct x
    | |- shp (let _ := _ in _) => cbv zeta
    end ]).

Lemma shp_docType : shp (parseDocTypeDecl E S H).
Proof. unfold parseDocTypeDecl. sauto. Qed.
Lemma shp_peref : shp (parsePEReference E S H).
Proof. unfold parsePEReference. sauto. Qed.
Lemma shp_elementDecl : forall n, shp (parseElementDecl E S H n).
Proof. intros; unfold parseElementDecl. sauto. Qed.
Lemma shp_unquoted : forall n, shp (unquotedEntity E S H n).
Proof. intros; unfold unquotedEntity. sauto. Qed.
Lemma shp_entityDecl : shp (parseEntityDecl E S H).
Proof. unfold parseEntityDecl. sauto; apply shp_unquoted. Qed.
Lemma shp_valueLoop : forall n q nm b i e, shp (attrValueLoop E S H n q nm b i e).
Proof. intros. apply (shp_eff TQuiet), eff_attrValueLoop. Qed.
Lemma shp_defaultDecl : forall n, shp (parseDefaultDecl E S H n).
Proof. intros; unfold parseDefaultDecl, parseAttributeValueInternal. sauto. apply shp_valueLoop. Qed.
Lemma shp_addDefault : forall e a v, shp (addAttributeDefault S H e a v).
Proof.
  intros; unfold addAttributeDefault. apply shp_bind; [apply wrp_shp, wrp_get|]. intros sp.
  destruct (lookupSpecial _ _); [apply wrp_shp, wrp_ret|]. destruct (prefix_local a). intros st.
  destruct (h_createAttr _ _ _ _ _) as [h' [[]| | |]]; exact I.
Qed.
Lemma shp_attlist : forall n e, shp (attlistLoop E S H n e).
Proof.
  induction n; intros; [apply shp_oof|]. cbn [attlistLoop]. sauto.
  all: first [apply shp_defaultDecl | apply shp_addDefault | apply shp_mlift, lexical_norm].
Qed.
Lemma shp_attlistDecl : forall n, shp (parseAttributeListDecl E S H n).
Proof. intros; unfold parseAttributeListDecl. sauto. apply shp_attlist. Qed.
Lemma shp_markup : forall n, shp (parseMarkupDecl E S H n).
Proof.
  intros n s. unfold parseMarkupDecl. cbv zeta.
  match goal with |- shape (fst (?m s)) => assert (X : shp m); [|apply X] end.
  sauto; first [apply shp_elementDecl | apply shp_entityDecl | apply shp_attlistDecl | apply shp_peref].
Qed.
Lemma shp_subset : forall n, shp (subsetLoop E S H n).
Proof. induction n; [apply shp_oof|]. cbn [subsetLoop]. sauto; first [apply shp_markup | apply shp_peref]. Qed.
Lemma shp_internal : forall n, shp (parseInternalSubset E S H n).
Proof. intros n. unfold parseInternalSubset. sauto. apply shp_subset. Qed.

Ltac wauto := repeat (first
  [ solve [auto | apply wrp_ret | apply wrp_failw | apply wrp_get | apply wrp_modify | apply wrp_emit | apply shp_peek | apply shp_adv
          | apply shp_has | apply shp_skip | apply shp_done | apply shp_consume | apply wrp_misc ]
  | match goal with
    | |- forall _, _ => intro
    | |- wrp (bind _ _ _) => apply wrp_bind
    | |- wrp (wrap _ _) => apply wrp_wrap
    | |- wrp (if ?b then _ else _) => destruct b
    | |- wrp (let _ := _ in _) => cbv zeta
    end ]).
Lemma wrp_DTD : forall n, wrp (parseDTD E S H n).
Proof. intros n. unfold parseDTD. wauto. apply shp_docType. apply shp_internal. apply wrp_shp, wrp_misc. Qed.
Lemma shp_switch : forall d, shp (switchEncoding E S d).
Proof. intros d s. unfold switchEncoding. destruct (Load _ _); exact I || reflexivity. Qed.
Theorem wrp_document : forall n, wrp (parseDocument E S H n).
Proof.
  intros n. unfold parseDocument. wauto.
  - intros s. destruct (detectEncoding (inp s)) as [[enc rest]|]; exact I.
  - apply wrp_lift_wrap; auto with scan.
  - apply shp_switch.
  - apply wrp_shp, wrp_misc.
  - apply wrp_DTD.
  - apply shp_element.
  - apply wrp_shp, wrp_misc.
Qed.
Theorem Parse_wrapped : forall n h b e, fst (Parse E S H n h b) = Fail e -> exists e', e = PErr e' /\ (forall e'', e' <> PErr e'').
Proof.
  intros n h b e He. pose proof (wrp_document n (init S h b)) as Hw. unfold Parse in He. rewrite He in Hw.
  destruct e as [k|k|e']; try discriminate. exists e'. split; auto. destruct e'; simpl in Hw; congruence.
Qed.
End W.
