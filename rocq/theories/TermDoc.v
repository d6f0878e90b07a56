(* Termination with a document type declaration: the productions of the
   internal subset run with as much fuel as there is input. *)
From Verif Require Import Base Utf8 Utf8Proofs Encoding XmlSpec EscapeProofs Scan ScanProofs Parser Effects LexProofs Grammar Loose TextProofs Complete Local LooseLex LooseProofs Term TermDtd TermRuns.
From Coq Require Import ZifyBool.

Section D.
Variable E : env.
Hypothesis OK : env_ok E.
Hypothesis NC : forall c, isLetter E c || isDigit E c = true -> xml_char c = true.
Hypothesis OV : forall n l, over E n l = [].
Variable S : Type.
Variable H : handler S.
Variable good : S -> Prop.
Variable L : nat.
Hypothesis GE : forall h v e, good h -> modest (mild E) L e -> good (fst (h_event H h v e)).
Hypothesis GG : forall h v n, good h -> good (fst (h_getEntity H h v n)) /\
  forall e b, snd (h_getEntity H h v n) = Answer (Some (Real e)) b -> small (mild E) L e.
Hypothesis GN : forall h, good h -> good (h_chunkEnter H h).
Hypothesis GL : forall h h', good h -> good h' -> good (h_chunkLeave H h h').
Hypothesis GD : True -> forall h n e, good h -> h_docEntity H h n = Some (Some e) -> small (mild E) L e.
Hypothesis GP : forall h v n, good h -> good (fst (h_getPEntity H h v n)).
Hypothesis GO : forall h e l, good h -> good (h_setOrig H h e l).
Hypothesis GA : forall h l p v, good h -> good (fst (h_createAttr H h l p v)) /\ snd (h_createAttr H h l p v) <> Oof.

Lemma OVw : forall n l, l <> [] -> (List.length (over E n l) < List.length l)%nat.
Proof. intros n l Hl. rewrite OV. destruct l; [congruence|cbn; lia]. Qed.
Lemma CSm : forall l l', mild E l -> suffix l' l -> mild E l'. Proof. apply mild_suffix. Qed.
Lemma CDm : forall r, mild E (s_ "<![CDATA[" ++ r) -> (exists a b, r = a ++ s_ "]]>" ++ b) \/ In 0 r.
Proof. intros r Hr. destruct (Hr [] _ eq_refl) as [X _]. apply X; auto. Qed.
Lemma COm : forall r, mild E (58 :: r) -> colon_ok E r.
Proof. intros r Hr. destruct (Hr [] _ eq_refl) as [_ X]. apply X; auto. Qed.

Notation fin := (Term.fin (mild E) S good L True).
Notation at1 := (Term.at1 (mild E) S good True).
Notation J := (Term.J (mild E) S good True).
Notation need := (Term.need S L).
(* under a condition on the input *)
Definition finp (X : list Z -> Prop) (k : nat) (b : bool) {A} (Q : A -> Prop) (m : M S A) : Prop :=
  forall s, J s -> (need s <= k)%nat -> X (inp s) -> at1 b Q m s.
Lemma fin_p : forall X k b A (Q : A -> Prop) m, fin k b Q m -> finp X k b Q m.
Proof. intros X k b A Q m Hm s Hs Hn _. apply Hm; auto. Qed.
Lemma finp_impl : forall (X Y : list Z -> Prop) k b A (Q : A -> Prop) m, finp Y k b Q m -> (forall l, X l -> Y l) -> finp X k b Q m.
Proof. intros X Y k b A Q m Hm Hx s Hs Hn Hi. apply Hm; auto. Qed.
Lemma finp_bind : forall (X Y : list Z -> Prop) k b A B (Q : A -> Prop) (R : B -> Prop) m (f : A -> M S B),
  finp X k false Q m -> (forall s a s', X (inp s) -> m s = (Ret a, s') -> suffix (inp s') (inp s) -> Y (inp s')) ->
  (forall a, Q a -> finp Y k b R (f a)) -> finp X k b R (bind S m f).
Proof.
  intros X Y k b A B Q R m f Hm Hy Hf s Hs Hn Hx. eapply (at_then E OVw); [apply Hm; auto|exact Hn|]. intros a s' Ha Qa Hs' Hn' Hx'. apply Hf; auto. eapply Hy; eauto.
Qed.
Lemma finp_eat : forall (X Y : list Z -> Prop) k b b' A B (Q : A -> Prop) (R : B -> Prop) m (f : A -> M S B),
  finp X k true Q m -> (forall s a s', X (inp s) -> m s = (Ret a, s') -> suffix (inp s') (inp s) -> Y (inp s')) ->
  (forall a k', k = Datatypes.S k' -> Q a -> finp Y k' b R (f a)) -> finp X k b' R (bind S m f).
Proof.
  intros X Y k b b' A B Q R m f Hm Hy Hf s Hs Hn Hx. destruct (Hm s Hs Hn Hx) as (F1 & F2 & F3 & F4 & F5). unfold Term.at1, bind.
  destruct (m s) as [[a|e| |] s'] eqn:Hms; cbn [fst snd] in *.
  - destruct (F5 a eq_refl) as [Qa Lt]. specialize (Lt eq_refl).
    assert (Hn' : (need s' < need s)%nat) by (unfold Term.need; rewrite F4; lia).
    destruct k as [|k']; [lia|].
    destruct (Hf a k' eq_refl Qa s' F2 ltac:(lia) ltac:(eapply Hy; eauto)) as (G1 & G2 & G3 & G4 & G5).
    split; auto. split; auto. split; [eapply suffix_trans; eauto|]. split; [congruence|].
    intros b0 Hb0. destruct (G5 b0 Hb0) as [Qb _]. split; auto. intros _. apply suffix_length in G3. lia.
  - split; [discriminate|]. split; [auto|]. split; [auto|]. split; [auto|discriminate].
  - split; [discriminate|]. split; [auto|]. split; [auto|]. split; [auto|discriminate].
  - congruence.
Qed.
Lemma at_wrap : forall b A (Q : A -> Prop) m s, at1 b Q m s -> at1 b Q (wrap S m) s.
Proof.
  intros b A Q m s Hm. unfold Term.at1, wrap in *. destruct (m s) as [[a|e| |] s']; cbn [fst snd] in *; auto.
  destruct Hm as (F1 & F2 & F3 & F4 & F5). split; [discriminate|]. split; [auto|]. split; [auto|]. split; [auto|discriminate].
Qed.
Lemma finp_wrap : forall X k b A (Q : A -> Prop) m, finp X k b Q m -> finp X k b Q (wrap S m).
Proof. intros X k b A Q m Hm s Hs Hn Hx. apply at_wrap. auto. Qed.
(* a scanner that does not hang on this input *)
Lemma at_lift : forall A (p : P A) s, J s -> fst (p (inp s)) <> Oof -> psuf p -> at1 false any (lift S p) s.
Proof.
  intros A p s (J1 & J2 & J3) Hp Hs. specialize (Hs (inp s)). unfold Term.at1, lift. destruct (p (inp s)) as [o l]. cbn [fst snd] in *.
  split; [auto|]. split; [repeat split; auto; eapply CSm; eauto|]. split; [auto|]. split; [auto|]. intros a _. split; [exact I|discriminate].
Qed.
Lemma finp_lift : forall X k A (p : P A), pno p -> psuf p -> finp X k false any (lift S p).
Proof. intros X k A p Hp Hs s Js _ _. apply at_lift; auto. Qed.

Lemma f_peek : forall k, fin k false any (mpeek E S). Proof. intros. apply fin_peek, CSm. Qed.
Lemma f_adv : forall k n, fin k false any (madvance E S n). Proof. intros. apply fin_adv; [apply OK|apply CSm]. Qed.
Lemma f_has : forall k p, fin k false any (mhas S p). Proof. intros. apply fin_has, CSm. Qed.
Lemma f_consume : forall k p, fin k false any (mconsume S p). Proof. intros. apply fin_consume, CSm. Qed.
Lemma f_skip : forall k, fin k false any (mskip S). Proof. intros. apply fin_skip, CSm. Qed.
Lemma f_emit : forall k e, modest (mild E) L e -> fin k false any (emit S H e). Proof. intros. apply fin_emit; auto. Qed.
Lemma f_name : forall k, fin k true any (lift S (pwrap (parseName E))).
Proof. intros. apply fin_lift; [apply CSm|]. apply pok_wrap, pok_name; [apply OK|apply OVw|apply CSm|apply CDm|apply COm]. Qed.
Lemma f_name' : forall k e, fin k true any (lift S (por_else (parseName E) e)).
Proof. intros. apply fin_lift; [apply CSm|]. apply pok_else, pok_name; [apply OK|apply OVw|apply CSm|apply CDm|apply COm]. Qed.
Lemma f_query : forall k n, fin k false any (queryEntity S H n).
Proof. intros. eapply (fin_any E OVw). apply fin_query; auto. Qed.
Lemma f_queryP : forall k n, fin k false any (queryPEntity S H n).
Proof.
  intros k n s (J1 & J2 & J3) Hn. unfold queryPEntity. pose proof (GP (hs s) (the_view S s) n J2) as G.
  destruct (h_getPEntity H (hs s) (the_view S s) n) as [h' [e b|]]; cbn [fst snd] in *; unfold Term.J; cbn; (split; [discriminate|]); (split; [auto|]); (split; [apply suffix_refl|]); (split; [auto|]); try discriminate.
  intros a _. split; [exact I|discriminate].
Qed.
Lemma f_hs : forall k (f : S -> S), (forall h, good h -> good (f h)) -> fin k false any (modify S (fun s => set_hs S (f (hs s)) s)).
Proof.
  intros k f Hf s (J1 & J2 & J3) Hn. cbn. unfold Term.J; cbn. split; [discriminate|]. split; [auto|]. split; [apply suffix_refl|]. split; [auto|]. intros a _. split; [exact I|discriminate].
Qed.
Lemma f_subset : forall k z, fin k false any (modify S (set_inSubset S z)).
Proof.
  intros k z s (J1 & J2 & J3) Hn. cbn. unfold Term.J; cbn. split; [discriminate|]. split; [auto|]. split; [apply suffix_refl|]. split; [auto|]. intros a _. split; [exact I|discriminate].
Qed.
Ltac fsolve := first [ apply f_peek | apply f_adv | apply f_has | apply f_consume | apply f_skip | apply fin_done | apply f_query | apply f_queryP | apply f_subset
  | apply fin_failw | apply fin_fail | apply fin_pan | apply fin_get | apply f_emit; first [exact I | intros X; discriminate X] | match goal with |- Term.fin _ _ _ _ _ _ _ _ (modify _ _) => apply fin_modify; intros s; repeat split end
  | apply fin_ret; exact I | assumption ].
Ltac fstep := first [ fsolve | match goal with
  | |- forall _, _ => intro
  | |- Term.fin _ _ _ _ _ _ _ _ (bind _ (if _ then _ else _) _) => eapply (fin_bind E OVw) with (Q := any)
  | |- Term.fin _ _ _ _ _ _ _ _ (bind _ _ _) => eapply (fin_bind E OVw); [first [fsolve | apply fin_wrap; fsolve]|]
  | |- Term.fin _ _ _ _ _ _ _ _ (wrap _ _) => apply fin_wrap
  | |- Term.fin _ _ _ _ _ _ _ _ (if ?b then _ else _) => destruct b
  | |- Term.fin _ _ _ _ _ _ _ _ (match ?x with _ => _ end) => destruct x
  | |- Term.fin _ _ _ _ _ _ _ _ (let _ := _ in _) => cbv zeta
  end ].

Lemma f_peref : forall k, fin k false any (parsePEReference E S H).
Proof.
  intros k. unfold parsePEReference. eapply (fin_bind E OVw); [fsolve|]. intros c _. destruct (negb _); [fsolve|].
  eapply (fin_bind E OVw); [fsolve|]. intros _ _. eapply (fin_bind E OVw); [eapply (fin_weak E OVw); [apply f_name|apply Nat.le_refl]|]. intros nm _. repeat fstep.
Qed.
Lemma f_elementDecl : forall k, fin k false any (parseElementDecl E S H k).
Proof.
  intros k s Hs Hn. unfold parseElementDecl. eapply (at_bind E OVw); [|exact Hn|].
  - apply at_lift; [auto| |apply psuf_elementdecl; auto]. apply elementDecl_runs; auto. unfold Term.need in Hn. eapply Nat.le_trans; [apply Nat.le_add_r|exact Hn].
  - intros [[nm typ] ct] _. fsolve.
Qed.
Lemma f_unquoted : forall k n, fin k false any (unquotedEntity E S H n).
Proof.
  intros k n. unfold unquotedEntity. repeat fstep. eapply (fin_bind E OVw); [eapply (fin_weak E OVw); [apply f_name|apply Nat.le_refl]|]. intros nm _. fsolve.
Qed.
Lemma finp_peek : forall (X : list Z -> Prop) k b A (Q : A -> Prop) (f : Z -> M S A),
  (forall s, J s -> (need s <= k)%nat -> X (inp s) -> at1 b Q (f (peek E (inp s))) s) -> finp X k b Q (bind S (mpeek E S) f).
Proof. intros X k b A Q f Hf s Hs Hn Hx. unfold Term.at1. rewrite mpeek_bind. apply Hf; auto. Qed.
(* the value of an entity *)
Lemma f_literal : forall k nm (isP : bool), finp (fun l => subset_ok E L l /\ quoting (peek E l)) k false any
  (bind S (lift S (ptry (parseEntityValue E))) (fun r => match r with
    | inr (literal, value) => bind S (emit S H (EEntityDecl nm (if isP then InternalParameterEntity else InternalGeneralEntity) [] [] value)) (fun _ => ret S literal)
    | inl _ => ret S [] end)).
Proof.
  intros k nm isP s Hs Hn [Hx Hq]. eapply (at_then E OVw) with (Q := any); [apply at_lift; [auto| |apply psuf_try, psuf_entityvalue; auto]|exact Hn|].
  - unfold ptry. destruct (parseEntityValue E (inp s)) as [[[a b]|e| |] l'] eqn:He; try discriminate.
    apply (entval_form E OK NC OV) with (q := peek E (inp s)) in He as (run & r0 & _ & _ & _ & _ & _ & He); auto. exfalso. eapply decodeEntities_runs; eauto.
  - intros r s' Hr _ Hs' Hn' Hsuf. apply lift_inv in Hr as (l' & Hr & ->). unfold ptry in Hr. destruct (parseEntityValue E (inp s)) as [[[a b]|e| |] l1] eqn:He; inversion Hr; subst; cbn [inp set_inp] in *.
    2:{ eapply at_fin; [exact Hs'|exact Hn'|]. fsolve. }
    apply (entval_form E OK NC OV) with (q := peek E (inp s)) in He as (run & r0 & Hi & Hl & Hni & Hend & _ & He); auto.
    unfold decodeEntities in He. apply (decode_inv E NC OV (List.length run)) in He as (v & -> & Hv & Lv); auto.
    destruct (Hx [] _ eq_refl) as (_ & _ & _ & C4). destruct (C4 _ _ _ _ Hi Hq Hl Hni Hend Hv) as [M1 M2].
    eapply at_fin; [exact Hs'|exact Hn'|]. eapply (fin_bind E OVw); [apply f_emit|intros; fsolve]. cbn [modest]. intros _. rewrite runes_of_utf8; [auto|].
    eapply Forall_impl; [|exact Lv]. intros c Hc. apply legal_valid; auto.
Qed.
Ltac xb := eapply finp_bind with (Y := subset_ok E L) (Q := any); [apply fin_p; first [fsolve|eapply (fin_weak E OVw); [apply f_name|apply Nat.le_refl]]|intros; eapply subset_suffix; eassumption|].
Lemma f_entityDecl : forall k, finp (subset_ok E L) k false any (parseEntityDecl E S H).
Proof.
  intros k. unfold parseEntityDecl. xb. intros [|] _; cbn [negb]; [|apply fin_p; fsolve]. xb. intros [|] _; cbn [negb]; [|apply fin_p; fsolve].
  xb. intros c _. eapply finp_bind with (Y := subset_ok E L) (Q := any).
  { apply fin_p. repeat fstep. }
  { intros; eapply subset_suffix; eassumption. }
  intros isP _. xb. intros nm _. destruct (mem_byte 58 nm); [apply fin_p; fsolve|]. xb. intros [|] _; cbn [negb]; [|apply fin_p; fsolve].
  apply finp_peek. intros s Hs Hn Hx. eapply (at_bind E OVw) with (Q := any); [|exact Hn|].
  - destruct (_ || _) eqn:Hq.
    + apply (f_literal k nm isP); auto. split; [auto|]. unfold quoting. lia.
    + eapply at_fin; [exact Hs|exact Hn|]. eapply (fin_bind E OVw) with (Q := any); [|intros; fsolve]. destruct isP; [fsolve|apply f_unquoted].
  - intros lit _. repeat fstep. apply (f_hs k (fun h => h_setOrig H h e lit)). auto.
Qed.
Lemma f_default : forall k, fin k false any (parseDefaultDecl E S H (Datatypes.S k)).
Proof.
  intros k. unfold parseDefaultDecl. eapply (fin_bind E OVw); [fsolve|]. intros [|] _; [fsolve|]. eapply (fin_bind E OVw); [fsolve|]. intros [|] _; [fsolve|].
  eapply (fin_bind E OVw); [fsolve|]. intros fx _. eapply (fin_bind E OVw) with (Q := any); [repeat fstep|]. intros dt _.
  eapply (fin_bind E OVw); [fsolve|]. intros q _. destruct (negb _); [fsolve|]. eapply (fin_bind E OVw); [fsolve|]. intros _ _.
  eapply (fin_bind E OVw) with (Q := any).
  { apply fin_wrap. unfold parseAttributeValueInternal. apply fin_valueLoop; first [exact OVw|exact CSm|exact CDm|exact COm|assumption]. }
  intros v _. repeat fstep.
Qed.
Lemma f_addDefault : forall k a b c, fin k false any (addAttributeDefault S H a b c).
Proof.
  intros k a b c. unfold addAttributeDefault. eapply (fin_bind E OVw); [fsolve|]. intros sp _. destruct (lookupSpecial _ _); [fsolve|]. destruct (prefix_local b) as [p l].
  intros s (J1 & J2 & J3) Hn. destruct (GA (hs s) l p c J2) as [G1 G2]. destruct (h_createAttr H (hs s) l p c) as [h' o]. cbn [fst snd] in *.
  destruct o; cbn; unfold Term.J; cbn; try congruence; (split; [discriminate|]); (split; [auto|]); (split; [apply suffix_refl|]); (split; [auto|]); try discriminate; intros x _; (split; [exact I|discriminate]).
Qed.
Ltac nb := eapply finp_bind with (Y := no_paren) (Q := any).
Lemma f_attlist : forall k elem, finp no_paren k false any (attlistLoop E S H (Datatypes.S k) elem).
Proof.
  induction k as [k IH] using lt_wf_ind. intros elem. cbn [attlistLoop].
  assert (KM : forall A (m : M S A), mmv S m -> forall s a s', no_paren (inp s) -> m s = (Ret a, s') -> suffix (inp s') (inp s) -> no_paren (inp s')).
  { intros A m Hm s a s' Hp Ha _. eapply no_paren_moves; [exact Hp|eapply Hm; eauto]. }
  assert (Mp : mmv S (mpeek E S)) by (apply mmv_lift; intros l x l' Hx; inversion Hx; apply moves_refl).
  assert (Ms : mmv S (mskip S)) by (apply mmv_lift, pmv_skip).
  nb; [apply fin_p; fsolve|apply KM; auto|]. intros c _. destruct (c =? 62); [apply fin_p; fsolve|].
  eapply finp_eat with (Y := no_paren) (Q := any) (b := false); [apply fin_p, f_name'|apply KM, mmv_lift, pmv_else, pmv_name; auto|]. intros att k' -> _.
  nb; [apply fin_p; fsolve|apply KM; auto|]. intros c1 _. destruct (negb _); [apply fin_p; fsolve|].
  nb; [apply fin_p; fsolve|apply KM; auto|]. intros _ _.
  nb.
  { intros s Hs Hn Hp. destruct (attrType_runs E OK NC OV (Datatypes.S k') (inp s) Hp) as [R1 _]. apply at_lift; [auto| |apply psuf_wrap, psuf_attrtype; auto].
    unfold pwrap. destruct (parseAttributeType _ _ _) as [[x|e| |] l']; cbn [fst] in *; congruence. }
  { intros s a s' Hp Ha _. apply lift_inv in Ha as (l' & Ha & ->). apply pwrap_inv in Ha. destruct (attrType_runs E OK NC OV (Datatypes.S k') (inp s) Hp) as [_ R2].
    eapply no_paren_moves; [exact Hp|]. cbn [inp set_inp]. eauto. }
  intros [typ enum] _. nb; [apply fin_p; fsolve|apply KM; auto|]. intros c2 _. destruct (negb _); [apply fin_p; fsolve|].
  nb; [apply fin_p; fsolve|apply KM; auto|]. intros _ _.
  nb; [apply fin_p, fin_wrap, f_default|apply KM, mmv_wrap, mmv_default; auto|]. intros [def dv] _.
  nb; [apply fin_p; destruct (_ && _); [apply fin_mlift, norm_runs|fsolve]|apply KM; destruct (_ && _); [apply stay_mmv, stay_mlift|apply mmv_ret]|]. intros dv2 _.
  nb; [apply fin_p; fsolve|apply KM; auto|]. intros c3 _.
  nb; [apply fin_p; repeat fstep|apply KM; destruct (c3 =? 62); [apply mmv_ret|]; destruct (negb _); [apply mmv_fail|]; apply mmv_bind; [auto|intros; apply mmv_ret]|]. intros _ _.
  nb; [apply fin_p; fsolve|apply KM, stay_mmv, stay_emit|]. intros _ _.
  nb; [apply fin_p; destruct (_ && _); [apply f_addDefault|fsolve]|apply KM; destruct (_ && _); [apply stay_mmv, stay_addDefault|apply mmv_ret]|]. intros _ _.
  nb; [apply fin_p; fsolve|apply KM, stay_mmv, stay_modify; intros; reflexivity|]. intros _ _.
  nb; [apply fin_p; fsolve|apply KM; auto|]. intros c4 _. destruct (c4 =? 62); [apply fin_p; fsolve|]. apply IH. lia.
Qed.
Lemma f_attlistDecl : forall k, finp (subset_ok E L) k false any (parseAttributeListDecl E S H k).
Proof.
  intros k s Hs Hn Hx. unfold parseAttributeListDecl. destruct (Hx [] _ eq_refl) as (_ & _ & C3 & _).
  destruct (has_prefix (s_ "<!ATTLIST") (inp s)) eqn:Hp.
  - eapply (finp_eat (fun l => l = inp s) no_paren k false false _ _ any any).
    + intros s1 Hs1 Hn1 Hi. apply at_strict; [apply (f_consume k); auto|]. intros a s' Ha. apply mconsume_form in Ha as [[_ (l & Hl & ->)]|(_ & _ & Hf)]; [|congruence].
      cbn [inp set_inp]. rewrite Hl, app_length. cbn. lia.
    + intros s1 a s' Hi Ha _. apply mconsume_form in Ha as [[_ (l & Hl & ->)]|(_ & _ & Hf)]; [|congruence]. cbn [inp set_inp]. intros x r ->. apply (C3 x r). congruence.
    + intros [|] k' -> _; cbn [negb]; [|apply fin_p; fsolve].
      assert (KM : forall A (m : M S A), mmv S m -> forall s a s', no_paren (inp s) -> m s = (Ret a, s') -> suffix (inp s') (inp s) -> no_paren (inp s')).
      { intros A m Hm s2 a s' Hp2 Ha _. eapply no_paren_moves; [exact Hp2|eapply Hm; eauto]. }
      nb; [apply fin_p; fsolve|apply KM; apply mmv_lift; intros l x l' Hx2; inversion Hx2; apply moves_refl|]. intros c _. destruct (negb _); [apply fin_p; fsolve|].
      nb; [apply fin_p; fsolve|apply KM, mmv_lift, pmv_skip|]. intros _ _.
      nb; [apply fin_p; eapply (fin_weak E OVw); [apply f_name|apply Nat.le_refl]|apply KM, mmv_lift, pmv_wrap, pmv_name; auto|]. intros el _.
      nb; [apply fin_p; fsolve|apply KM, mmv_lift, pmv_skip|]. intros _ _. apply f_attlist.
    + exact Hs.
    + exact Hn.
    + reflexivity.
  - unfold bind, mconsume, lift, pconsume. unfold Term.at1. rewrite Hp. cbn [negb fst snd]. refine (fin_ret (mild E) S good L True k _ any tt I (set_inp S (inp s) s) _ Hn). destruct s; exact Hs.
Qed.
Lemma f_PI : forall k, fin k true any (parsePI E S H).
Proof. intros k. apply fin_PI; first [exact OVw|exact CSm|exact CDm|exact COm|assumption]. Qed.
Lemma f_comment : forall k, fin k true any (parseComment E S H).
Proof. intros k. apply fin_comment; first [exact OVw|exact CSm|exact CDm|exact COm|assumption]. Qed.
Lemma f_misc : forall k, fin k false any (parseMisc E S H (Datatypes.S k)).
Proof. intros k. apply fin_misc; first [exact OVw|exact CSm|exact CDm|exact COm|assumption]. Qed.
Lemma finp_weak : forall X k k' b A (Q : A -> Prop) m, finp X k b Q m -> (k' <= k)%nat -> finp X k' false any m.
Proof.
  intros X k k' b A Q m Hm Hk s Hs Hn Hx. destruct (Hm s Hs ltac:(lia) Hx) as (F1 & F2 & F3 & F4 & F5).
  split; [auto|]. split; [auto|]. split; [auto|]. split; [auto|]. intros a _. split; [exact I|discriminate].
Qed.
Lemma f_markup : forall k, finp (subset_ok E L) k false any (parseMarkupDecl E S H k).
Proof.
  intros k s Hs Hn Hx. unfold parseMarkupDecl, Term.at1.
  assert (P : fin k false any (wrap S (parsePEReference E S H))) by (apply fin_wrap, f_peref).
  destruct (peek E (inp s) =? 60); [|exact (P s Hs Hn)]. destruct (peekn E 2 (inp s) =? 33).
  2:{ destruct (peekn E 2 (inp s) =? 63); [|exact (P s Hs Hn)]. refine (fin_weak E OVw _ _ _ _ _ k k _ _ _ _ (f_PI k) (Nat.le_refl k) s Hs Hn). }
  cbv zeta. refine (finp_bind (subset_ok E L) (fun _ => True) k false _ _ any any _ _ _ _ _ s Hs Hn Hx).
  - destruct (_ =? 69).
    { destruct (_ =? 76); [apply finp_wrap, fin_p, f_elementDecl|]. destruct (_ =? 78); [apply finp_wrap, f_entityDecl|apply fin_p; fsolve]. }
    destruct (_ =? 65); [apply finp_wrap, f_attlistDecl|]. destruct (_ =? 45); [|apply fin_p; fsolve].
    apply finp_wrap, fin_p. eapply (fin_weak E OVw); [apply f_comment|apply Nat.le_refl].
  - auto.
  - intros _ _. apply fin_p, P.
Qed.
Lemma skip_inner : forall (s : pst S) b s', inner E L (inp s) -> mskip S s = (Ret b, s') -> inner E L (inp s').
Proof. intros s b s' Hi Hm. apply mskip_form in Hm as (w & Hw & Bw & _ & _). rewrite Hw in Hi. eapply inner_blanks; eauto. Qed.
Lemma peref_inner : forall s u s', inner E L (inp s) -> wrap S (parsePEReference E S H) s = (Ret u, s') -> inner E L (inp s').
Proof.
  intros s u s' Hi Hm. apply wrap_inv, (peref_goes E OK NC OV) in Hm as [[-> _]|Hg]; [auto|]. eapply goes_inner; eauto.
Qed.
Lemma mdone_bind : forall A (f : bool -> M S A) s, bind S (mdone S) f s = f (match inp s with [] => true | _ => false end) s.
Proof. reflexivity. Qed.
Lemma f_subsetLoop : forall k, finp (inner E L) k false any (subsetLoop E S H (Datatypes.S k)).
Proof.
  induction k as [k IH] using lt_wf_ind. cbn [subsetLoop].
  intros s Hs Hn Hx. unfold Term.at1. rewrite mdone_bind, mpeek_bind.
  destruct (match inp s with [] => true | _ => false end || (peek E (inp s) =? 93)) eqn:Hd.
  { refine (at_fin _ _ _ _ _ k _ _ _ _ s Hs Hn _). fsolve. }
  apply orb_false_iff in Hd as [Hne Hd].
  assert (Rest : forall k', k = Datatypes.S k' -> finp (inner E L) k' false any (bind S (wrap S (parsePEReference E S H)) (fun _ => subsetLoop E S H k))).
  { intros k' ->. eapply finp_bind with (Y := inner E L) (Q := any); [apply fin_p, fin_wrap, f_peref|intros s1 a s1' Hi Ha _; eapply peref_inner; eauto|]. intros _ _. apply IH. lia. }
  destruct (match inp s with [] => false | c :: _ => blank c end) eqn:Hb.
  - refine (finp_eat (fun l => l = inp s) (inner E L) k false false _ _ any any _ _ _ _ _ s Hs Hn eq_refl).
    + intros s1 Hs1 Hn1 Hi. apply at_strict; [apply (f_skip k); auto|]. intros a s' Ha. rewrite Hi. unfold mskip, lift, skipBlanks in Ha. inversion Ha; subst. cbn [inp set_inp]. rewrite Hi.
      destruct (inp s) as [|c t]; [discriminate|]. cbn [dropW List.length]. rewrite <- blank_is, Hb. pose proof (suffix_length _ _ (suffix_dropW isBlankCh t)). lia.
    + intros s1 a s' Hi Ha _. eapply skip_inner; [|exact Ha]. rewrite Hi; auto.
    + intros a k' Hk _. subst k. eapply finp_bind with (Y := inner E L) (Q := any).
      * eapply finp_impl; [eapply finp_weak; [apply finp_wrap, f_markup|lia]|]. intros l [_ Hl]; exact Hl.
      * intros s1 a1 s1' Hi Ha _. apply wrap_inv in Ha. eapply markup_goes in Ha; eauto. apply Ha.
      * intros _ _. apply Rest; auto.
  - refine (finp_bind (fun l => l = inp s) (fun l => l = inp s) k false _ _ any any _ _ _ _ _ s Hs Hn eq_refl).
    + apply fin_p; fsolve.
    + intros s1 a s' Hi Ha _. unfold mskip, lift, skipBlanks in Ha. inversion Ha; subst. cbn [inp set_inp]. rewrite Hi. destruct (inp s) as [|c t]; [reflexivity|]. cbn [dropW]. rewrite <- blank_is, Hb. reflexivity.
    + intros _ _. destruct (inp s) as [|c t] eqn:Hin; [discriminate|].
      refine (finp_eat (fun l => l = c :: t) (inner E L) k false false _ _ any any _ _ _ _ _).
        { intros s1 Hs1 Hn1 Hi. apply at_strict; [apply (finp_wrap _ _ _ _ _ _ (f_markup k)); auto; rewrite Hi; apply Hx|]. intros a s' Ha. apply wrap_inv in Ha.
          destruct (markup_goes E OK NC OV S H L k s1 a s') as (_ & _ & R); [rewrite Hi; exact Hx|exact Ha|]. apply R. rewrite Hi. cbn [ready]. cbn [peek hd] in Hd. split; [auto|lia]. }
        { intros s1 a s' Hi Ha _. apply wrap_inv in Ha. destruct (markup_goes E OK NC OV S H L k s1 a s') as (R & _ & _); [rewrite Hi; exact Hx|exact Ha|exact R]. }
        intros a k' Hk _. apply Rest; auto.
Qed.
Lemma f_internal : forall k, finp (fun l => forall t, l = 91 :: t -> inner E L t) k false any (parseInternalSubset E S H (Datatypes.S k)).
Proof.
  intros k. unfold parseInternalSubset. apply finp_peek. intros s Hs Hn Hx. refine (at_bind E OVw _ _ _ _ _ k _ _ _ any _ _ _ s _ Hn _); [|intros; repeat fstep].
  destruct (Z.eqb_spec (peek E (inp s)) 91) as [K|K]; cbn [negb]; [|refine (at_fin _ _ _ _ _ k _ _ _ _ s Hs Hn _); fsolve].
  apply (peek_is E OK NC) in K as (t & K); [|lia].
  refine (finp_bind (fun l => l = 91 :: t) (inner E L) k false _ _ any any _ _ _ _ _ s Hs Hn K).
  - apply fin_p; fsolve.
  - intros s1 a s' Hi Ha _. apply madvance_form in Ha. subst s'. cbn [inp set_inp]. rewrite Hi, advance_1. auto.
  - intros _ _. refine (finp_bind _ (fun _ => True) k false _ _ any any _ _ (f_subsetLoop k) _ _); [auto|]. intros _ _. apply fin_p. repeat fstep.
Qed.
Lemma f_docType : forall k, fin k false any (parseDocTypeDecl E S H).
Proof.
  intros k. unfold parseDocTypeDecl. eapply (fin_bind E OVw); [fsolve|]. intros [|] _; cbn [negb]; [|fsolve]. eapply (fin_bind E OVw); [fsolve|]. intros _ _.
  eapply (fin_bind E OVw); [eapply (fin_weak E OVw); [apply f_name'|apply Nat.le_refl]|]. intros nm _. repeat fstep.
Qed.
Lemma docType_text : forall s u s', parseDocTypeDecl E S H s = (Ret u, s') -> exists b n b' e, inp s = s_ "<!DOCTYPE" ++ b ++ n ++ b' ++ e ++ inp s' /\
  blanks b /\ word n /\ blanks b' /\ (e = [] \/ e = [62]).
Proof.
  intros s u s' Hm. unfold parseDocTypeDecl in Hm. apply bind_inv in Hm as (ok & s1 & H1 & Hm).
  apply mconsume_form in H1 as [[-> (l & Hl & ->)]|(-> & -> & Hf)]; [|discriminate]. cbn [negb] in Hm.
  apply bind_inv in Hm as (b & s2 & H2 & Hm). apply mskip_form in H2 as (w & Hw & Bw & Hs2 & _). cbn [inp set_inp] in Hw.
  apply bind_inv in Hm as (el & s3 & H3 & Hm). apply lift_inv in H3 as (l3 & H3 & ->). apply por_else_inv, (name_is_word E OK NC OV) in H3 as (nm & H3 & Wn & _).
  apply bind_inv in Hm as (u4 & s4 & H4 & Hm). assert (I4 : inp s4 = l3) by (inversion H4; reflexivity). clear H4.
  apply bind_inv in Hm as (b5 & s5 & H5 & Hm). apply mskip_form in H5 as (w5 & Hw5 & Bw5 & Hs5 & _). rewrite I4 in Hw5.
  apply bind_inv in Hm as (u6 & s6 & H6 & Hm). apply stay_emit in H6. rewrite mpeek_bind in Hm.
  assert (Hall : inp s = s_ "<!DOCTYPE" ++ w ++ nm ++ w5 ++ inp s6) by (rewrite H6, Hl, Hw, H3, Hw5; reflexivity).
  destruct (_ =? 91); [inversion Hm; subst; exists w, nm, w5, []; cbn [app]; auto 10|]. destruct (Z.eqb_spec (peek E (inp s6)) 62) as [K|K]; [|discriminate]. cbn [negb] in Hm.
  apply (peek_is E OK NC) in K as (t & K); [|lia]. apply madvance_form in Hm. subst s'. cbn [inp set_inp]. rewrite K, advance_1 in *. exists w, nm, w5, [62]. rewrite Hall. auto 10.
Qed.
Lemma f_DTD : forall k, finp (subset_ok E L) k false any (parseDTD E S H (Datatypes.S k)).
Proof.
  intros k. unfold parseDTD. xb. intros _ _.
  eapply finp_bind with (Y := fun l => forall t, l = 91 :: t -> inner E L t) (Q := any); [apply fin_p, fin_wrap, f_docType| |].
  - intros s a s' Hx Ha Hsuf t Ht. apply wrap_inv, docType_text in Ha as (b & n & b' & e & Hi & Hb & Hn & Hb' & He). split.
    + intros its r -> Hit. destruct (Hx [] _ eq_refl) as (C1 & _). apply (C1 b n b' e its r); auto. rewrite Hi, Ht. reflexivity.
    + eapply subset_suffix; [exact Hx|]. eapply suffix_trans; [|exact Hsuf]. exists [91]. exact Ht.
  - intros _ _. eapply finp_bind with (Y := fun l => forall t, l = 91 :: t -> inner E L t) (Q := any); [apply fin_p; fsolve|intros s a s' Hi Ha _; inversion Ha; subst; exact Hi|].
    intros sub _. eapply finp_bind with (Y := fun _ => True) (Q := any); [|auto|].
    + destruct sub; [apply finp_wrap, f_internal|apply fin_p; fsolve].
    + intros _ _. apply fin_p. eapply (fin_bind E OVw); [fsolve|]. intros _ _. eapply (fin_bind E OVw); [fsolve|]. intros nm _. eapply (fin_bind E OVw); [fsolve|]. intros _ _.
      eapply (fin_bind E OVw); [fsolve|]. intros _ _. eapply (fin_bind E OVw); [fsolve|]. intros _ _. apply fin_wrap, f_misc.
Qed.
Theorem Parse_doctype : forall bytes, (forall c rest, suffix rest bytes -> mild E (decode E c rest) /\ subset_ok E L (decode E c rest)) ->
  forall n h, good h -> (forall c rest, suffix rest bytes -> (List.length (decode E c rest) + (L + 2) * 41 < n)%nat) ->
  fst (Parse E S H n h bytes) <> Oof.
Proof.
  intros bytes BY n h Hh Hn.
  apply (Parse_runs E OK OVw (mild E) CSm CDm COm) with (good := good) (L := L) (D := True) (X := subset_ok E L); auto.
  - intros c rest Hr. apply BY; auto.
  - intros l l'. apply subset_suffix.
  - intros c rest Hr. apply BY; auto.
  - right. apply f_DTD.
Qed.
End D.
