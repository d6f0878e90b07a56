(* No panic: with a handler that does not panic and entities that are all
   known to it, no input without document type declaration makes the parser
   panic. *)
From Verif Require Import Base Utf8 Encoding Scan ScanProofs Parser Effects LexProofs.

(* ---- specification ---- *)
Definition nm_start (E : env) (c : Z) : bool := isLetter E c || (c =? 95) || (c =? 58).
Definition nm_part (E : env) (c : Z) : bool :=
  isLetter E c || isDigit E c || (c =? 95) || (c =? 45) || (c =? 46) || (c =? 58).
Definition predefined_names : list (list Z) := [s_ "lt"; s_ "gt"; s_ "amp"; s_ "apos"; s_ "quot"].
(* whatever name follows an ampersand, it is predefined or in G *)
Definition refs_ok (E : env) (G : str -> Prop) (l : list Z) : Prop := forall pre c name rest,
  l = pre ++ [38] ++ (c :: name) ++ rest -> nm_start E c = true -> Forall (fun x => nm_part E x = true) name ->
  match rest with [] => True | x :: _ => nm_part E x = false end ->
  In (c :: name) predefined_names \/ G (utf8 (c :: name)).
Definition no_doctype (l : list Z) : Prop := forall pre r, l <> pre ++ s_ "<!DOCTYPE" ++ r.
(* a percent sign after white space stands only after some '>' *)
Definition late_percent (l : list Z) : Prop := forall pre b r,
  l = pre ++ b :: 37 :: r -> In b [32; 9; 10; 13] -> In 62 pre.

Lemma refs_suffix : forall E G l l', refs_ok E G l -> suffix l' l -> refs_ok E G l'.
Proof. intros E G l l' Hr (p & ->) pre c name rest ->. apply (Hr (p ++ pre)). rewrite <- app_assoc. reflexivity. Qed.
Lemma doctype_suffix : forall l l', no_doctype l -> suffix l' l -> no_doctype l'.
Proof. intros l l' Hr (p & ->) pre r ->. apply (Hr (p ++ pre) r). rewrite <- app_assoc. reflexivity. Qed.

Section NP.
Variable E : env.
Hypothesis OK : env_ok E.

Lemma nameRest_part : forall c, nameRest E c = nm_part E c.
Proof.
  intros c. unfold nameRest, nm_part.
  assert (X : c = 0 \/ c = 32 \/ c = 62 \/ c = 47 -> isLetter E c = false /\ isDigit E c = false).
  { intros Hc. rewrite (ok_letter E OK), (ok_digit E OK) by lia. unfold isAZ, isD. lia. }
  destruct (isLetter E c), (isDigit E c); try lia;
  destruct (Z.eqb_spec c 0), (Z.eqb_spec c 32), (Z.eqb_spec c 62), (Z.eqb_spec c 47);
  try (destruct X as [? ?]; [tauto|discriminate]); lia.
Qed.

(* ---- scanners ---- *)
Definition pnp {A} (p : P A) : Prop := forall l, fst (p l) <> Pan.
Lemma pnp_bind : forall A B (p : P A) (f : A -> P B), pnp p -> (forall a, pnp (f a)) -> pnp (pbind p f).
Proof. intros A B p f Hp Hf l. unfold pbind. specialize (Hp l). destruct (p l) as [[a|e| |] l']; cbn in *; try discriminate; auto. apply Hf. Qed.
Lemma pnp_ret : forall A (a : A), pnp (pret a). Proof. intros A a l; discriminate. Qed.
Lemma pnp_fail : forall A e, pnp (@pfail A e). Proof. intros A a l; discriminate. Qed.
Lemma pnp_fun : forall A (g : list Z -> A) h, pnp (fun l => (Ret (g l), h l)). Proof. intros A g h l; discriminate. Qed.
Lemma pnp_wrap : forall A (p : P A), pnp p -> pnp (pwrap p).
Proof. intros A p Hp l. unfold pwrap. specialize (Hp l). destruct (p l) as [[a|e| |] l']; cbn in *; congruence. Qed.
Lemma pnp_try : forall A (p : P A), pnp p -> pnp (ptry p).
Proof. intros A p Hp l. unfold ptry. specialize (Hp l). destruct (p l) as [[a|e| |] l']; cbn in *; congruence. Qed.
Lemma pnp_else : forall A (p : P A) e, pnp p -> pnp (por_else p e).
Proof. intros A p e Hp l. unfold por_else. specialize (Hp l). destruct (p l) as [[a|e'| |] l']; cbn in *; congruence. Qed.
Lemma pnp_consume : forall p, pnp (pconsume p). Proof. intros p l. unfold pconsume. destruct (has_prefix _ _); discriminate. Qed.
Lemma pnp_scanName : forall a b k, pnp (scanName E a b k).
Proof. intros a b k l. unfold scanName. cbv zeta. destruct (_ || _); [discriminate|]. destruct (_ <? _); discriminate. Qed.
Lemma pnp_nmtoken : pnp (parseNmtoken E).
Proof. intros l. unfold parseNmtoken. cbv zeta. destruct (_ || _); discriminate. Qed.
Ltac nstep := first
  [ assumption | apply pnp_ret | apply pnp_fail | apply pnp_fun | apply pnp_consume | apply pnp_scanName | apply pnp_nmtoken
  | match goal with
    | |- forall _, _ => intro
    | |- pnp (pbind _ _) => apply pnp_bind
    | |- pnp (pwrap _) => apply pnp_wrap
    | |- pnp (ptry _) => apply pnp_try
    | |- pnp (por_else _ _) => apply pnp_else
    | |- pnp (pfailw _) => apply pnp_fail
    | |- pnp (if ?b then _ else _) => destruct b
    | |- pnp (match ?x with _ => _ end) => destruct x
    | |- pnp (let _ := _ in _) => cbv zeta
    end ].
Lemma pnp_qname : pnp (parseQName E).
Proof. unfold parseQName. repeat nstep. Qed.
Lemma pnp_charref : pnp (parseCharRef E).
Proof.
  unfold parseCharRef. repeat nstep. intros l. destruct (crefLoop _ _ _) as [[v|] l']; [|discriminate].
  cbv zeta. destruct (_ && _); discriminate.
Qed.
Lemma pnp_PI : pnp (scanPI E).
Proof. unfold scanPI, parsePITarget. repeat nstep. Qed.
Lemma pnp_comment : pnp (scanComment E).
Proof.
  unfold scanComment. repeat nstep. intros l. cbv zeta. destruct (negb _); [discriminate|]. destruct (negb _); [discriminate|].
  destruct (commentLoop _ _ _); discriminate.
Qed.
Lemma pnp_chardata : forall b, pnp (scanCharData E b).
Proof. intros b l. unfold scanCharData. destruct (charDataLoop _ _ _) as [[|c cs]| |]; discriminate. Qed.

(* ---- the parser ---- *)
Section M.
Variable S : Type.
Variable H : handler S.
Variable good : S -> Prop.
Variable G : str -> Prop.
Hypothesis GE : forall h v e, good h -> good (fst (h_event H h v e)) /\ snd (h_event H h v e) <> HPanic.
Hypothesis GG : forall h v n, good h -> G n -> good (fst (h_getEntity H h v n)) /\
  exists e, snd (h_getEntity H h v n) = Answer (Some (Real e)) false /\
    (e_type e = InternalGeneralEntity -> refs_ok E G (runes_of (e_content e))).
Hypothesis GN : forall h, good h -> good (h_chunkEnter H h).
Hypothesis GL : forall h h', good h -> good h' -> good (h_chunkLeave H h h').

Definition I_ (s : pst S) : Prop := refs_ok E G (inp s) /\ good (hs s) /\ attsSpecial s = [].
Definition safe {A} (Q : A -> Prop) (m : M S A) : Prop := forall s, I_ s ->
  fst (m s) <> Pan /\ I_ (snd (m s)) /\ (forall a, fst (m s) = Ret a -> Q a).
Definition any {A} (a : A) : Prop := True.
Ltac s3 := refine (conj _ (conj _ _)).
Ltac triv := s3; [discriminate|auto|intros; try exact I; try discriminate].

Lemma safe_any : forall A (Q : A -> Prop) m, safe Q m -> safe any m.
Proof. intros A Q m Hm s Hs. destruct (Hm s Hs) as (A1 & A2 & _). s3; auto. intros; exact I. Qed.
Lemma safe_bind : forall A B (Q : A -> Prop) (R : B -> Prop) m (f : A -> M S B),
  safe Q m -> (forall a, Q a -> safe R (f a)) -> safe R (bind S m f).
Proof.
  intros A B Q R m f Hm Hf s Hs. destruct (Hm s Hs) as (F1 & F2 & F3). unfold bind.
  destruct (m s) as [[a|e| |] s']; cbn [fst snd] in *; try (triv; fail).
  - apply Hf; auto.
  - congruence.
Qed.
Lemma safe_wrap : forall A (Q : A -> Prop) m, safe Q m -> safe Q (wrap S m).
Proof. intros A Q m Hm s Hs. specialize (Hm s Hs). unfold wrap. destruct (m s) as [[a|e| |] s']; cbn [fst snd] in *; auto. destruct Hm as (_ & ? & _). triv. Qed.
Lemma I_suffix : forall s l, I_ s -> suffix l (inp s) -> I_ (set_inp S l s).
Proof. intros s l (A1 & A2 & A3) Hl. repeat split; auto. eapply refs_suffix; eauto. Qed.
Lemma safe_always : forall A (Q : A -> Prop) m c, safe Q m -> psuf c -> safe Q (always S m c).
Proof.
  intros A Q m c Hm Hc s Hs. specialize (Hm s Hs). unfold always.
  destruct (m s) as [[a|e| |] s']; cbn [fst snd] in *; auto; destruct Hm as (? & ? & ?); pose proof (Hc (inp s'));
    s3; try discriminate; auto; apply I_suffix; auto.
Qed.
Lemma safe_ret : forall A (Q : A -> Prop) (a : A), Q a -> safe Q (ret S a).
Proof. intros A Q a Qa s Hs. s3; [discriminate|auto|]. cbn. intros a0 Ha; inversion Ha; subst; auto. Qed.
Lemma safe_fail : forall A (Q : A -> Prop) e, safe Q (@fail S A e).
Proof. intros A Q e s Hs. triv. Qed.
Lemma safe_failw : forall A (Q : A -> Prop) e, safe Q (@failw S A e).
Proof. intros; apply safe_fail. Qed.
Lemma safe_oof : forall A (Q : A -> Prop), safe Q (@oof S A).
Proof. intros A Q s Hs. triv. Qed.
Lemma safe_get : forall A (f : pst S -> A), safe any (get S f).
Proof. intros A f s Hs. triv. Qed.
Lemma safe_modify : forall f, (forall s, inp (f s) = inp s /\ hs (f s) = hs s /\ attsSpecial (f s) = attsSpecial s) -> safe any (modify S f).
Proof. intros f Hf s (A1 & A2 & A3). destruct (Hf s) as (B1 & B2 & B3). unfold modify, I_; cbn. rewrite B1, B2, B3. triv. Qed.
Lemma safe_lift : forall A (p : P A), pnp p -> psuf p -> safe any (lift S p).
Proof.
  intros A p Hp Hq s Hs. unfold lift. specialize (Hp (inp s)). specialize (Hq (inp s)). destruct (p (inp s)) as [o l]; cbn in *.
  s3; [auto|apply I_suffix; auto|intros; exact I].
Qed.
Lemma safe_emit_raw : forall e, safe any (emit_raw S H e).
Proof.
  intros e s (A1 & A2 & A3). unfold emit_raw. destruct (GE (hs s) (the_view S s) e A2) as [B1 B2].
  destruct (h_event _ _ _ _) as [h' r]. cbn [fst snd] in *. destruct r; try congruence; cbn; triv; repeat split; auto.
Qed.
Lemma safe_emit : forall e, safe any (emit S H e).
Proof. intros; apply safe_wrap, safe_emit_raw. Qed.
Lemma safe_peek : safe any (mpeek E S).
Proof. apply safe_lift; [apply pnp_fun|]. intros l; apply suffix_refl. Qed.
Lemma safe_peekn : forall n, safe any (mpeekn E S n).
Proof. intros; apply safe_lift; [apply pnp_fun|]. intros l; apply suffix_refl. Qed.
Lemma safe_has : forall n, safe any (mhas S n).
Proof. intros; apply safe_lift; [apply pnp_fun|]. intros l; apply suffix_refl. Qed.
Lemma safe_adv : forall n, safe any (madvance E S n).
Proof. intros; apply safe_lift; [apply pnp_fun|]. intros l. apply suffix_advance; auto. Qed.
Lemma safe_consume : forall p, safe any (mconsume S p).
Proof. intros; apply safe_lift; [apply pnp_consume|]. intros l. unfold pconsume. destruct (has_prefix _ _); cbn; [apply suffix_skipn|apply suffix_refl]. Qed.
Lemma safe_skip : safe any (mskip S).
Proof. apply safe_lift; [apply pnp_fun|]. intros l. apply suffix_dropW. Qed.
Lemma safe_blanks : forall t, safe any (areBlanks E S H t).
Proof. intros t s Hs. cbn. triv. Qed.
Ltac fsolve := first [ apply safe_peek | apply safe_peekn | apply safe_adv | apply safe_has | apply safe_consume | apply safe_skip
  | apply safe_failw | apply safe_fail | apply safe_oof | apply safe_get | apply safe_emit | apply safe_emit_raw | apply safe_blanks
  | apply safe_ret; exact I | assumption ].
Ltac fstep := first [ fsolve | match goal with
  | |- forall _, _ => intro
  | |- safe _ (bind _ (mdone _) _) => eapply safe_bind with (Q := any); [apply safe_get|]
  | |- safe _ (bind _ _ _) => eapply safe_bind; [first [fsolve | apply safe_wrap; fsolve]|]
  | |- safe _ (bind _ (if _ then _ else _) _) => eapply safe_bind with (Q := any)
  | |- safe _ (wrap _ _) => apply safe_wrap
  | |- safe _ (if ?b then _ else _) => destruct b
  | |- safe _ (let '(_, _) := ?x in _) => destruct x
  | |- safe _ (match ?x with _ => _ end) => destruct x
  | |- safe _ (let _ := _ in _) => cbv zeta
  end ].

Lemma safe_PI : safe any (parsePI E S H).
Proof. unfold parsePI. eapply safe_bind; [apply safe_lift; [apply pnp_PI|apply psuf_pi; auto]|]. repeat fstep. Qed.
Lemma safe_comment : safe any (parseComment E S H).
Proof. unfold parseComment. eapply safe_bind; [apply safe_lift; [apply pnp_comment|apply psuf_comment; auto]|]. repeat fstep. Qed.
Lemma safe_charData : forall b, safe any (parseCharData E S H b).
Proof. intros b. unfold parseCharData. eapply safe_bind; [apply safe_lift; [apply pnp_chardata|apply psuf_chardata; auto]|]. repeat fstep. Qed.
Lemma safe_CDSect : safe any (parseCDSect E S H).
Proof. unfold parseCDSect. eapply safe_bind; [fsolve|]. intros ok _. destruct (negb ok); [fsolve|]. eapply safe_bind; [apply safe_wrap, safe_charData|]. repeat fstep. Qed.

(* the name after an ampersand is known *)
Definition at_amp (l : list Z) : Prop := exists t, l = 38 :: t.
Definition okent (e : ent) : Prop := e_type e = InternalGeneralEntity -> refs_ok E G (runes_of (e_content e)).

Lemma predefined_In : forall n, In n predefined_names -> predefined n <> None.
Proof. intros n Hn. simpl in Hn. repeat destruct Hn as [<-|Hn]; try discriminate. destruct Hn. Qed.

Definition sat {A} (Q : A -> Prop) (m : M S A) (s : pst S) : Prop :=
  fst (m s) <> Pan /\ I_ (snd (m s)) /\ (forall a, fst (m s) = Ret a -> Q a).
Lemma sat_bind : forall A B (Q : A -> Prop) (R : B -> Prop) m (f : A -> M S B) s,
  sat Q m s -> (forall a s', fst (m s) = Ret a -> snd (m s) = s' -> Q a -> I_ s' -> sat R (f a) s') -> sat R (bind S m f) s.
Proof.
  intros A B Q R m f s (F1 & F2 & F3) Hf. unfold sat, bind.
  destruct (m s) as [[a|e| |] s']; cbn [fst snd] in *; try (triv; fail).
  - apply Hf; auto.
  - congruence.
Qed.
Lemma sat_wrap : forall A (Q : A -> Prop) m s, sat Q m s -> sat Q (wrap S m) s.
Proof. intros A Q m s Hm. unfold sat, wrap in *. destruct (m s) as [[a|e| |] s']; cbn [fst snd] in *; auto. destruct Hm as (_ & ? & _). triv. Qed.
Lemma In_predef_utf8 : forall n, In n predefined_names -> utf8 n = n.
Proof. intros n Hn. simpl in Hn. repeat destruct Hn as [<-|Hn]; try reflexivity. destruct Hn. Qed.

Lemma safe_entityRef : safe okent (parseEntityRef E S H).
Proof.
  intros s Hs. change (sat okent (parseEntityRef E S H) s). unfold parseEntityRef.
  eapply sat_bind; [apply safe_peek; auto|]. intros c s' Hc <- _ _. cbn in Hc. inversion Hc; subst c; clear Hc.
  unfold mpeek, lift, ppeek. cbn [fst snd]. replace (set_inp S (inp s) s) with s by (destruct s; reflexivity).
  destruct (Z.eqb_spec (peek E (inp s)) 38) as [Hp|_]; [|apply safe_failw; auto]. cbn [negb].
  assert (Hl : exists t, inp s = 38 :: t).
  { unfold peek in Hp. destruct (inp s) as [|x t]; [|simpl in Hp; subst; eauto]. simpl in Hp. destruct (ok_eofr E OK) as [e|e]; rewrite e in Hp; discriminate. }
  destruct Hl as (t & Hl).
  eapply sat_bind; [apply safe_adv; auto|]. intros _ s' _ <- _ Is'.
  unfold madvance, lift, padvance in *. cbn [fst snd] in *.
  assert (Ha : advance E 1 (inp s) = t) by (rewrite Hl; reflexivity). rewrite Ha in *.
  eapply sat_bind with (Q := fun name => predefined name <> None \/ G name).
  - pose proof (safe_lift _ (por_else (parseName E) (PErr (Plain "ErrNameRequired")))) as X.
    destruct (X (pnp_else _ _ _ (pnp_scanName _ _ _)) ltac:(apply psuf_else, psuf_scanName; auto) (set_inp S t s) Is') as (X1 & X2 & _).
    s3; auto. intros name Hn. unfold lift, por_else in Hn. cbn [inp set_inp] in Hn.
    destruct (parseName E t) as [[v|e| |] l'] eqn:Hpn; cbn in Hn; try discriminate. inversion Hn; subst v.
    apply parseName_inv in Hpn as (n & after & -> & -> & Hn1 & Hn2 & _); auto.
    destruct n as [|c run]; [destruct Hn1|]. destruct Hn1 as [Hst Hrun].
    destruct Hs as (Hr & _ & _). destruct (Hr [] c run after) as [Hpre|Hg]; auto.
    + eapply Forall_impl; [|exact Hrun]. cbn. intros x. rewrite nameRest_part; auto.
    + destruct after; auto. rewrite <- nameRest_part; auto.
    + left. rewrite In_predef_utf8 by auto. apply predefined_In; auto.
  - intros name s' _ _ Hname Is2. clear Is' Ha Hl Hp Hs.
    eapply sat_bind; [apply safe_peek; auto|]. intros c2 s3 _ _ _ Is3. destruct (negb _); [apply safe_failw; auto|].
    eapply sat_bind; [apply safe_adv; auto|]. intros _ s4 _ _ _ Is4.
    destruct (predefined name) as [content|] eqn:Hpre; [apply safe_ret; auto; intro; discriminate|].
    destruct Hname as [Hn|Hg]; [congruence|].
    assert (Hq : sat (fun a => exists e, a = (Some (Real e), false) /\ okent e) (queryEntity S H name) s4).
    { destruct Is4 as (B1 & B2 & B3). unfold sat, queryEntity. destruct (GG (hs s4) (the_view S s4) name B2 Hg) as (C1 & e & C2 & C3).
      destruct (h_getEntity _ _ _ _) as [h' a]. cbn [fst snd] in *. subst a. cbn. s3; [discriminate|repeat split; auto|].
      intros a Ha. inversion Ha; subst. eauto. }
    eapply sat_bind; [exact Hq|]. intros a s5 _ _ (e & -> & He) Is5. cbn. apply safe_ret; auto.
Qed.

Lemma safe_charRef : safe any (wrap S (lift S (parseCharRef E))).
Proof. apply safe_wrap, safe_lift; [apply pnp_charref|apply psuf_charref; auto]. Qed.
Lemma safe_valueLoop : forall n q b sp en, safe any (attrValueLoop E S H n q false b sp en).
Proof.
  induction n as [|n IH]; intros q b sp en; cbn [attrValueLoop]; [fsolve|].
  eapply safe_bind; [fsolve|]. intros c _. destruct (_ || _); [rewrite andb_false_r; fsolve|].
  destruct (c =? 38).
  - eapply safe_bind; [fsolve|]. intros c2 _. destruct (c2 =? 35).
    + eapply safe_bind; [apply safe_charRef|]. intros r _. apply IH.
    + eapply safe_bind; [apply safe_wrap, safe_entityRef|]. intros e _. apply IH.
  - destruct (_ || _); (eapply safe_bind; [fsolve|]; intros _ _; apply IH).
Qed.
Lemma safe_attribute : forall n nm, safe any (parseAttribute E S H n nm).
Proof.
  intros n nm. unfold parseAttribute. eapply safe_bind; [apply safe_lift; [apply pnp_wrap, pnp_qname|apply psuf_wrap, psuf_qname; auto]|].
  intros [l p] _. intros s Hs. match goal with |- fst (?m s) <> Pan /\ _ => change (sat any m s) end.
  eapply sat_bind with (Q := fun sp => sp = []).
  - s3; [discriminate|auto|]. intros a Ha. cbn in Ha. inversion Ha; subst. apply Hs.
  - intros sp s' _ _ -> Is'. cbn [lookupSpecial find]. cbv zeta. cbn [andb].
    revert s' Is'. match goal with |- forall s', I_ s' -> sat any ?m s' => change (safe any m) end.
    eapply safe_bind; [fsolve|]. intros _ _. eapply safe_bind; [fsolve|]. intros _ _. eapply safe_bind; [fsolve|]. intros _ _.
    eapply safe_bind; [apply safe_wrap|].
    + unfold parseAttributeValue. eapply safe_bind; [fsolve|]. intros q _. destruct (_ || _); [|fsolve].
      eapply safe_bind; [fsolve|]. intros _ _. apply safe_always; [apply safe_valueLoop|].
      intros l0. cbn. destruct (_ =? _); [apply suffix_advance; auto|apply suffix_refl].
    + intros ve _. eapply safe_bind with (Q := any); [apply safe_ret; exact I|]. intros; apply safe_ret; exact I.
Qed.
Lemma safe_afterNS : safe any (afterNSDecl E S).
Proof. unfold afterNSDecl. repeat fstep. Qed.
Lemma safe_attrLoop : forall n l a nb, safe any (attrLoop E S H n l a nb).
Proof.
  induction n as [|n IH]; intros l a nb; cbn [attrLoop]; [fsolve|].
  eapply safe_bind; [fsolve|]. intros _ _. eapply safe_bind; [fsolve|]. intros c _.
  destruct (c =? 62); [repeat fstep|]. eapply safe_bind; [fsolve|]. intros c2 _. destruct (_ && _); [fsolve|].
  eapply safe_bind; [apply safe_wrap, safe_attribute|]. intros [[an ap] av] _. cbv zeta.
  assert (NS : forall f, safe any (modify S (fun s => set_nsTab S (f s) s))) by (intros; apply safe_modify; auto).
  destruct (_ && _).
  - eapply safe_bind; [apply NS|]. intros _ _. eapply safe_bind; [apply safe_afterNS|]. intros [|] _; apply IH.
  - destruct (str_eqb ap _); [|apply IH]. destruct (str_eqb an _).
    + destruct (negb _); [fsolve|]. eapply safe_bind; [apply safe_afterNS|]. intros _ _; apply IH.
    + repeat (match goal with |- safe _ (if ?b then _ else _) => destruct b end; [fsolve|]).
      eapply safe_bind; [fsolve|]. intros tab _. destruct (negb _); [fsolve|].
      eapply safe_bind; [apply NS|]. intros _ _. eapply safe_bind; [apply safe_afterNS|]. intros _ _; apply IH.
Qed.
Lemma safe_startTag : forall n, safe any (parseStartTag E S H n).
Proof.
  intros n. unfold parseStartTag. eapply safe_bind; [fsolve|]. intros c _. destruct (negb _); [fsolve|].
  eapply safe_bind; [fsolve|]. intros _ _.
  eapply safe_bind; [apply safe_lift; [apply pnp_else, pnp_qname|apply psuf_else, psuf_qname; auto]|]. intros [l p] _.
  destruct l; [fsolve|]. eapply safe_bind; [apply safe_attrLoop|]. intros [as0 nb] _.
  eapply safe_bind; [fsolve|]. intros d _. cbv zeta. eapply safe_bind; [fsolve|]. intros tab _.
  destruct (_ && _); [fsolve|]. eapply safe_bind; [fsolve|]. intros _ _. apply safe_modify; auto.
Qed.
Lemma sat_endTag : forall s, I_ s -> nodeTab s <> [] -> sat any (parseEndTag E S H) s.
Proof.
  intros s Hs Hn. unfold parseEndTag.
  eapply sat_bind; [apply safe_consume; auto|]. intros empty s1 _ E1 _ I1.
  assert (N1 : nodeTab s1 = nodeTab s). { rewrite <- E1. unfold mconsume, lift. destruct (pconsume _ _); reflexivity. }
  eapply sat_bind with (Q := fun nodes => nodes = nodeTab s).
  { s3; [discriminate|auto|]. intros a Ha. cbn in Ha. inversion Ha; congruence. }
  intros nodes s2 _ _ -> I2. destruct (nodeTab s) as [|[[l p] u] rest]; [congruence|].
  revert s2 I2. match goal with |- forall s2, I_ s2 -> sat any ?m s2 => change (safe any m) end.
  eapply safe_bind with (Q := any).
  - repeat fstep.
  - intros _ _. eapply safe_bind; [fsolve|]. intros _ _. apply safe_modify; auto.
Qed.
Lemma safe_element : forall n content, eff TForest content -> safe any content -> safe any (parseElement E S H n content).
Proof.
  intros n content Heff Hc s Hs. change (sat any (parseElement E S H n content) s). unfold parseElement.
  eapply sat_bind; [apply safe_wrap; [apply safe_startTag|auto]|]. intros [] s1 R1 E1 _ I1.
  assert (N1 : nodeTab s1 <> []).
  { destruct (starts_wrap _ _ (starts_startTag E S H n) s) as (evs & _ & _ & [(_ & _ & X)|(X & _)]).
    - destruct X as (l & p & u & ns & atts & r & _ & X). rewrite E1 in X. rewrite X. discriminate.
    - rewrite R1 in X. discriminate. }
  eapply sat_bind; [apply safe_has; auto|]. intros empty s2 _ E2 _ I2.
  assert (N2 : nodeTab s2 <> []). { rewrite <- E2. exact N1. }
  eapply sat_bind with (Q := any).
  - destruct empty; [apply safe_ret; [exact I|auto]|apply safe_wrap; auto].
  - intros [] s3 R3 E3 _ I3. apply sat_wrap, sat_endTag; auto.
    destruct empty; [cbn in E3; rewrite <- E3; auto|].
    destruct (eff_wrap _ TForest _ content Heff s2) as (evs & _ & _ & _ & F). rewrite R3 in F. destruct (F eq_refl) as (F1 & _).
    rewrite E3 in F1. rewrite F1. exact N2.
Qed.
Lemma safe_chunk : forall content c, safe any content -> refs_ok E G (runes_of c) -> safe any (parseBalancedChunk S H content c).
Proof.
  intros content c Hc Hr s Hs. unfold parseBalancedChunk. cbv zeta. destruct (_ <? _); [apply (safe_fail _ any); auto|].
  match goal with |- context [content ?x] => set (s0 := x) end.
  assert (I0 : I_ s0). { destruct Hs as (A1 & A2 & A3). unfold I_, s0; cbn. repeat split; auto. }
  destruct (Hc s0 I0) as (B1 & (B2 & B3 & B4) & _). destruct (content s0) as [o s1]. cbn [fst snd] in *.
  destruct Hs as (A1 & A2 & A3).
  s3; [auto| |intros; exact I]. unfold I_; cbn. repeat split; auto.
Qed.
Lemma safe_reference : forall content, safe any content -> safe any (parseReference E S H content).
Proof.
  intros content Hc. unfold parseReference. eapply safe_bind; [fsolve|]. intros c _. destruct (negb _); [fsolve|].
  eapply safe_bind; [fsolve|]. intros c2 _. destruct (_ =? _).
  - eapply safe_bind; [apply safe_charRef|]. intros v _. fsolve.
  - eapply safe_bind; [apply safe_wrap, safe_entityRef|]. intros e He. destruct (_ || _); [repeat fstep|].
    destruct (_ =? _); [fsolve|]. destruct (Z.eqb_spec (e_type e) InternalGeneralEntity) as [Ht|_]; [|fsolve].
    eapply safe_bind; [apply safe_chunk; auto|]. intros _ _. fsolve.
Qed.
Lemma safe_content : forall n, safe any (parseContent E S H n).
Proof.
  induction n as [|n IH]; cbn [parseContent]; [fsolve|].
  eapply safe_bind with (Q := any); [apply safe_get|]. intros d _. destruct d; [fsolve|].
  assert (X : forall m : M S unit, safe any m -> safe any (bind S m (fun _ => parseContent E S H n))).
  { intros m Hm. eapply safe_bind; [exact Hm|]. intros _ _. exact IH. }
  intros s Hs. cbv zeta. repeat match goal with |- context [if ?b then _ else _] => destruct b end.
  - apply (safe_ret unit any); [exact I|auto].
  - apply X; auto. apply safe_wrap, safe_PI.
  - apply X; auto. apply safe_wrap, safe_CDSect.
  - apply X; auto. apply safe_wrap, safe_comment.
  - apply X; auto. apply safe_wrap, safe_element; auto. apply eff_content.
  - apply X; auto. apply safe_wrap, safe_reference; auto.
  - apply X; auto. apply safe_charData.
Qed.
Lemma safe_misc : forall n, safe any (parseMisc E S H n).
Proof.
  induction n as [|n IH]; cbn [parseMisc]; [fsolve|].
  eapply safe_bind with (Q := any); [apply safe_get|]. intros d _. destruct d; [fsolve|].
  assert (X : forall A (m : M S A), safe any m -> safe any (bind S m (fun _ => parseMisc E S H n))).
  { intros A m Hm. eapply safe_bind; [exact Hm|]. intros _ _. exact IH. }
  intros s Hs. cbv zeta. repeat match goal with |- context [if ?b then _ else _] => destruct b end.
  - apply X; auto. apply safe_wrap, safe_PI.
  - apply X; auto. apply safe_wrap, safe_comment.
  - apply X; auto. apply safe_skip.
  - apply (safe_ret unit any); [exact I|auto].
Qed.

(* ---- the XML declaration ---- *)
(* no panic, and what is left keeps its percent signs late *)
Definition bsafe {A} (p : P A) : Prop := forall l, late_percent l -> fst (p l) <> Pan /\
  (forall a, fst (p l) = Ret a -> late_percent (snd (p l))) /\ (forall a, fst (p l) = Fail a -> late_percent (snd (p l))).
Lemma late_drop : forall u l, late_percent (u ++ l) -> ~ In 62 u -> late_percent l.
Proof. intros u l Hl Hu pre b r -> Hb. specialize (Hl (u ++ pre) b r). rewrite <- app_assoc in Hl. specialize (Hl eq_refl Hb). apply in_app_or in Hl. tauto. Qed.
Lemma bsafe_bind : forall A B (p : P A) (f : A -> P B), bsafe p -> (forall a, bsafe (f a)) -> bsafe (pbind p f).
Proof.
  intros A B p f Hp Hf l Hl. destruct (Hp l Hl) as (H1 & H2 & H3). unfold pbind. destruct (p l) as [[a|e| |] l']; cbn [fst snd] in *.
  - apply Hf; eauto.
  - repeat split; try discriminate. intros; eauto.
  - congruence.
  - repeat split; discriminate.
Qed.
Lemma bsafe_ret : forall A (a : A), bsafe (pret a). Proof. intros A a l Hl; repeat split; try discriminate; auto. Qed.
Lemma bsafe_fail : forall A e, bsafe (@pfail A e). Proof. intros A a l Hl; repeat split; try discriminate; auto. Qed.
Lemma bsafe_look : forall A (g : list Z -> A), bsafe (fun l => (Ret (g l), l)). Proof. intros A a l Hl; repeat split; try discriminate; auto. Qed.
Lemma bsafe_wrap : forall A (p : P A), bsafe p -> bsafe (pwrap p).
Proof. intros A p Hp l Hl. specialize (Hp l Hl). unfold pwrap. destruct (p l) as [[a|e| |] l']; cbn [fst snd] in *; auto. destruct Hp as (_ & _ & ?). repeat split; try discriminate. eauto. Qed.
Lemma bsafe_try : forall A (p : P A), bsafe p -> bsafe (ptry p).
Proof.
  intros A p Hp l Hl. specialize (Hp l Hl). unfold ptry. destruct (p l) as [[a|e| |] l']; cbn [fst snd] in *; try (repeat split; discriminate).
  - destruct Hp as (_ & ? & _). repeat split; try discriminate. eauto.
  - destruct Hp as (_ & _ & ?). repeat split; try discriminate. eauto.
  - destruct Hp; congruence.
Qed.
Lemma bsafe_consume : forall p, ~ In 62 p -> bsafe (pconsume p).
Proof.
  intros p Hp l Hl. unfold pconsume. destruct (has_prefix p l) eqn:Hx; cbn; repeat split; try discriminate; auto.
  apply has_prefix_true in Hx as (r & ->). rewrite skipn_app, skipn_all, Nat.sub_diag. cbn. intros _ _. eapply late_drop; eauto.
Qed.
Lemma dropW_split : forall f l, l = takeW f l ++ dropW f l.
Proof. induction l as [|c l IH]; simpl; auto. destruct (f c); simpl; congruence. Qed.
Lemma takeW_all : forall f l, Forall (fun c => f c = true) (takeW f l).
Proof. induction l as [|c l IH]; simpl; auto. destruct (f c) eqn:Hc; auto. Qed.
Lemma takeW_no : forall f l, f 62 = false -> ~ In 62 (takeW f l).
Proof. intros f l Hf Hi. pose proof (takeW_all f l) as X. rewrite Forall_forall in X. specialize (X _ Hi). simpl in X. congruence. Qed.
Lemma bsafe_skipb : bsafe (skipBlankBytes E).
Proof.
  intros l Hl. unfold skipBlankBytes.
  assert (Hd : late_percent (dropW isBlankCh l)).
  { rewrite (dropW_split isBlankCh l) in Hl. eapply late_drop; [exact Hl|]. apply takeW_no. reflexivity. }
  destruct (Nat.eqb_spec (List.length (takeW isBlankCh l)) 0) as [_|Hn]; cbn [fst snd]; [repeat split; try discriminate; auto|].
  destruct (Z.eqb_spec (bpeek E (dropW isBlankCh l)) 37) as [Hp|_]; cbn [andb]; [|repeat split; try discriminate; auto].
  exfalso. assert (Hne : takeW isBlankCh l <> []) by (intros X; rewrite X in Hn; apply Hn; reflexivity).
  destruct (exists_last Hne) as (t & c & Ht). clear Hn Hne.
  pose proof (dropW_split isBlankCh l) as Hs. pose proof (takeW_all isBlankCh l) as Ha. pose proof (takeW_no isBlankCh l eq_refl) as Hno.
  destruct (dropW isBlankCh l) as [|y rest].
  - unfold bpeek in Hp. simpl in Hp. destruct (ok_beof E OK) as [e|e]; rewrite e in Hp; discriminate.
  - simpl in Hp. subst y. rewrite Ht in Hs, Ha, Hno. rewrite <- app_assoc in Hs. simpl in Hs.
    apply Hno. apply in_or_app. left. apply (Hl t c rest Hs). apply Forall_app in Ha as [_ Ha]. inversion Ha; subst.
    unfold isBlankCh in *. simpl. lia.
Qed.
Lemma bsafe_adv : forall n, (forall l, fst (padvance E n l) <> Pan) -> forall l, late_percent l ->
  (~ In 62 (firstn n l)) -> late_percent (advance E n l).
Proof.
  intros n _ l Hl Hn. unfold advance. destruct (Nat.leb_spec n (List.length l)) as [Hle|Hgt].
  - rewrite <- (firstn_skipn n l) in Hl. eapply late_drop; eauto.
  - destruct (ok_over E OK n l) as (k & ->). rewrite firstn_all2 in Hn by lia.
    rewrite <- (firstn_skipn k l) in Hl. eapply late_drop; [exact Hl|]. intros Hi. apply Hn. rewrite <- (firstn_skipn k l). apply in_or_app; auto.
Qed.
Lemma late_adv1 : forall l, late_percent l -> bpeek E l <> 62 -> late_percent (advance E 1 l).
Proof.
  intros l Hl Hb. apply bsafe_adv; auto. { discriminate. } destruct l as [|c l]; simpl; [tauto|]. unfold bpeek in Hb. simpl in Hb. intros [X|[]]. congruence.
Qed.
Lemma bsafe_peek_adv : forall A (t : Z -> bool) (k1 : P A) (k2 : Z -> P A), t 62 = false ->
  bsafe k1 -> (forall q, t q = true -> bsafe (k2 q)) ->
  bsafe (pbind (pbpeek E) (fun q => if negb (t q) then k1 else pbind (padvance E 1) (fun _ => k2 q))).
Proof.
  intros A t k1 k2 Ht H1 H2 l Hl.
  assert (Eq : pbind (pbpeek E) (fun q => if negb (t q) then k1 else pbind (padvance E 1) (fun _ => k2 q)) l =
    if t (bpeek E l) then k2 (bpeek E l) (advance E 1 l) else k1 l).
  { unfold pbind, pbpeek, padvance. destruct (t (bpeek E l)); reflexivity. }
  rewrite Eq. destruct (t (bpeek E l)) eqn:Hb; [|apply H1; auto].
  apply H2; auto. apply late_adv1; auto. congruence.
Qed.
Lemma bsafe_quoted : forall p, bsafe p -> bsafe (parseQuotedTextBytes E p).
Proof.
  intros p Hp. unfold parseQuotedTextBytes.
  apply (bsafe_peek_adv _ (fun q => (q =? 34) || (q =? 39)) (pfail _) (fun q => pbind p (fun value => pbind (pbpeek E) (fun c => if negb (c =? q) then pfail _ else pbind (padvance E 1) (fun _ => pret value))))); auto.
  - apply bsafe_fail.
  - intros q Hq. apply bsafe_bind; auto. intros v.
    apply (bsafe_peek_adv _ (fun c => c =? q) (pfail (Plain "string not closed")) (fun _ => pret v)); [lia|apply bsafe_fail|intros; apply bsafe_ret].
Qed.
Lemma bsafe_named : forall n p, ~ In 62 n -> bsafe p -> bsafe (parseNamedAttributeBytes E n p).
Proof.
  intros n p Hn Hp. unfold parseNamedAttributeBytes. apply bsafe_bind; [apply bsafe_skipb|]. intros _. apply bsafe_bind; [apply bsafe_consume; auto|].
  intros ok. destruct (negb ok); [apply bsafe_fail|]. apply bsafe_bind; [apply bsafe_skipb|]. intros _.
  apply (bsafe_peek_adv _ (fun c => c =? 61) (pfail (Plain "ErrEqualSignRequired")) (fun _ => pbind (skipBlankBytes E) (fun _ => parseQuotedTextBytes E p))); auto; [apply bsafe_fail|].
  intros _ _. apply bsafe_bind; [apply bsafe_skipb|]. intros _. apply bsafe_quoted; auto.
Qed.
Lemma bpeekn_nth : forall n l, bpeekn E n l <> 62 -> forall x, nth_error l (pred n) = Some x -> x <> 62.
Proof. intros n l Hb x Hx. unfold bpeekn in Hb. apply (nth_error_nth l (pred n) (beof E)) in Hx. congruence. Qed.
Lemma In_firstn : forall A n (l : list A) x, In x (firstn n l) -> In x l.
Proof. intros A n l x Hx. rewrite <- (firstn_skipn n l). apply in_or_app; auto. Qed.
Lemma bsafe_version : bsafe (parseVersionNum E).
Proof.
  intros l Hl. unfold parseVersionNum.
  destruct (isD (bpeek E l)) eqn:D1; cbn [negb]; [|repeat split; try discriminate; auto].
  destruct (Z.eqb_spec (bpeekn E 2 l) 46) as [D2|]; cbn [negb]; [|repeat split; try discriminate; auto].
  destruct (isD (bpeekn E 3 l)) eqn:D3; cbn [negb]; [|repeat split; try discriminate; auto].
  cbv zeta. cbn [fst snd]. repeat split; try discriminate. intros _ _.
  assert (EO : forall P : Prop, isD (beof E) = true -> P). { intros P X. destruct (ok_beof E OK) as [e|e]; rewrite e in X; discriminate. }
  destruct l as [|a [|b [|c t]]]; try (apply EO; assumption).
  unfold bpeek, bpeekn in *. cbn [hd nth pred skipn] in *. subst b.
  apply bsafe_adv; auto. { discriminate. }
  rewrite (dropW_split isD t) at 2. change (a :: 46 :: c :: takeW isD t ++ dropW isD t) with (([a; 46; c] ++ takeW isD t) ++ dropW isD t).
  rewrite firstn_app. replace (3 + List.length (takeW isD t) - List.length ([a; 46%Z; c] ++ takeW isD t))%nat with 0%nat by (rewrite app_length; simpl; lia).
  rewrite firstn_O, app_nil_r. intros Hi. apply In_firstn in Hi. apply in_app_or in Hi as [Hi|Hi].
  - simpl in Hi. unfold isD in *. lia.
  - revert Hi. apply takeW_no. reflexivity.
Qed.
Lemma bsafe_encname : bsafe (parseEncodingName E).
Proof.
  intros l Hl. unfold parseEncodingName. cbv zeta. destruct (isAZ (bpeek E l)) eqn:A1; cbn [negb]; [|repeat split; try discriminate; auto].
  cbn [fst snd]. repeat split; try discriminate. intros _ _.
  destruct l as [|a t]. { unfold bpeek in A1. simpl in A1. destruct (ok_beof E OK) as [e|e]; rewrite e in A1; discriminate. }
  unfold bpeek in A1. cbn [hd tl] in *.
  apply bsafe_adv; auto. { discriminate. }
  rewrite (dropW_split encRest t) at 4. change (a :: takeW encRest t ++ dropW encRest t) with ((a :: takeW encRest t) ++ dropW encRest t).
  intros Hi. rewrite firstn_app in Hi. apply in_app_or in Hi as [Hi|Hi].
  - apply In_firstn in Hi. destruct Hi as [Hi|Hi]; [unfold isAZ in A1; lia|]. revert Hi. apply takeW_no. reflexivity.
  - destruct (dropW encRest t) as [|y r]; [rewrite firstn_nil in Hi; destruct Hi|]. unfold bpeek in Hi. cbn [hd] in Hi.
    destruct (Z.eqb_spec y 0) as [->|_]; cbn [List.length] in Hi.
    + replace (Datatypes.S (Datatypes.S (List.length (takeW encRest t))) - Datatypes.S (List.length (takeW encRest t)))%nat with 1%nat in Hi by lia.
      simpl in Hi. destruct Hi as [Hi|[]]. discriminate.
    + rewrite Nat.sub_diag in Hi. destruct Hi.
Qed.
Lemma bsafe_savalue : bsafe parseStandaloneDeclValue.
Proof.
  unfold parseStandaloneDeclValue. apply bsafe_bind; [apply bsafe_consume; vm_compute; intuition discriminate|]. intros [|]; [apply bsafe_ret|].
  apply bsafe_bind; [apply bsafe_consume; vm_compute; intuition discriminate|]. intros [|]; [apply bsafe_ret|apply bsafe_fail].
Qed.
(* the end of the declaration *)
Definition bend {A} (p : P A) : Prop := forall l, late_percent l -> fst (p l) <> Pan.
Lemma bend_bind : forall A B (p : P A) (f : A -> P B), bsafe p -> (forall a, bend (f a)) -> bend (pbind p f).
Proof.
  intros A B p f Hp Hf l Hl. destruct (Hp l Hl) as (H1 & H2 & H3). unfold pbind. destruct (p l) as [[a|e| |] l']; cbn [fst snd] in *; try discriminate.
  - apply Hf; eauto.
  - congruence.
Qed.
Lemma bend_close : forall A (a : A) (f : P A), bend f -> bend (pbind (pbclose E) (fun fin : bool => if fin then pret a else f)).
Proof. intros A a f Hf l Hl. unfold pbind, pbclose. destruct (_ && _); [discriminate|apply Hf; auto]. Qed.
Lemma bend_safe : forall A (p : P A), bsafe p -> bend p.
Proof. intros A p Hp l Hl. apply Hp; auto. Qed.
Lemma bend_xmldecl : bend (parseXMLDecl E).
Proof.
  unfold parseXMLDecl. apply bend_bind; [apply bsafe_consume; vm_compute; intuition discriminate|]. intros ok. destruct (negb ok); [apply bend_safe, bsafe_fail|].
  apply bend_bind; [apply bsafe_skipb|]. intros b. destruct (negb b); [apply bend_safe, bsafe_fail|].
  apply bend_bind; [apply bsafe_wrap, bsafe_named; [vm_compute; intuition discriminate|apply bsafe_version]|]. intros v.
  apply bend_bind; [apply bsafe_look|]. intros c. destruct (negb _); [apply bend_close, bend_safe, bsafe_fail|].
  apply bend_bind; [apply bsafe_try, bsafe_named; [vm_compute; intuition discriminate|apply bsafe_encname]|]. intros r. cbv zeta.
  assert (X : forall enc, bend (pbind (parseStandaloneDecl E) (fun sa => pbind (pbclose E) (fun fin : bool =>
      if fin then pret {| xd_version := v; xd_encoding := enc; xd_standalone := sa |} else pfailw "XML declaration not closed")))).
  { intros enc. apply bend_bind; [|intros sa; apply bend_close, bend_safe, bsafe_fail].
    unfold parseStandaloneDecl. apply bsafe_bind; [apply bsafe_named; [vm_compute; intuition discriminate|apply bsafe_savalue]|]. intros; apply bsafe_ret. }
  destruct r as [[k|k|e]|enc]; try apply X.
  - destruct (String.eqb _ _); [apply bend_safe, bsafe_fail|apply X].
  - apply bend_close, X.
Qed.

(* ---- the document ---- *)
Variable bytes : str.
Hypothesis BY : forall c rest, suffix rest bytes -> refs_ok E G (decode E c rest) /\ no_doctype (decode E c rest).
Hypothesis PC : forall a r, bytes = a ++ s_ "<?xml" ++ r -> late_percent bytes.

Definition msuf {A} (m : M S A) : Prop := forall s, suffix (inp (snd (m s))) (inp s).
Lemma msuf_bind : forall A B (m : M S A) (f : A -> M S B), msuf m -> (forall a, msuf (f a)) -> msuf (bind S m f).
Proof. intros A B m f Hm Hf s. specialize (Hm s). unfold bind. destruct (m s) as [[a|e| |] s']; cbn [fst snd] in *; auto. eapply suffix_trans; [apply Hf|auto]. Qed.
Lemma msuf_wrap : forall A (m : M S A), msuf m -> msuf (wrap S m).
Proof. intros A m Hm s. specialize (Hm s). unfold wrap. destruct (m s) as [[a|e| |] s']; auto. Qed.
Lemma msuf_lift : forall A (p : P A), psuf p -> msuf (lift S p).
Proof. intros A p Hp s. unfold lift. specialize (Hp (inp s)). destruct (p (inp s)); auto. Qed.
Lemma msuf_emit : forall e, msuf (emit S H e).
Proof. intros e. apply msuf_wrap. intros s. unfold emit_raw. destruct (h_event _ _ _ _) as [h' []]; apply suffix_refl. Qed.
Lemma msuf_misc : forall n, msuf (parseMisc E S H n).
Proof.
  induction n as [|n IH]; cbn [parseMisc]; [intros s; apply suffix_refl|].
  apply msuf_bind; [intros s; apply suffix_refl|]. intros [|]; [intros s; apply suffix_refl|].
  intros s. cbv zeta. repeat match goal with |- context [if ?b then _ else _] => destruct b end.
  - apply (msuf_bind _ _ _ _ (msuf_wrap _ _ (msuf_bind _ _ _ _ (msuf_lift _ _ (psuf_pi E OK)) (fun _ => msuf_emit _))) (fun _ => IH)).
  - apply (msuf_bind _ _ _ _ (msuf_wrap _ _ (msuf_bind _ _ _ _ (msuf_lift _ _ (psuf_comment E OK)) (fun _ => msuf_emit _))) (fun _ => IH)).
  - apply (msuf_bind _ _ _ _ (msuf_lift _ _ psuf_skip) (fun _ => IH)).
  - apply suffix_refl.
Qed.
Lemma detect_late : forall l enc r, detectEncoding l = Some (enc, r) -> exists u, l = u ++ r /\ ~ In 62 u.
Proof.
  assert (C : forall p l r, consume p l = Some r -> ~ In 62 p -> exists u, l = u ++ r /\ ~ In 62 u).
  { intros p l r. unfold consume. destruct (has_prefix p l) eqn:Hp; [|discriminate]. intros Hr Hno. inversion Hr; subst.
    apply has_prefix_true in Hp as (t & ->). exists p. rewrite skipn_app, skipn_all, Nat.sub_diag. auto. }
  intros l enc r Hd. unfold detectEncoding in Hd.
  repeat match type of Hd with
         | match consume ?p ?x with _ => _ end = _ =>
             let X := fresh in destruct (consume p x) eqn:X; [inversion Hd; subst; eapply C; [exact X|vm_compute; intuition discriminate]|]
         | (if ?b then _ else _) = _ => destruct b; [inversion Hd; subst; exists []; split; auto|]
         end.
  discriminate.
Qed.

Lemma pre_bind : forall A B (m : M S A) (f : A -> M S B) s (K' : A -> pst S -> Prop),
  (fst (m s) <> Pan /\ forall a, fst (m s) = Ret a -> K' a (snd (m s))) -> (forall a s', K' a s' -> fst (f a s') <> Pan) -> fst (bind S m f s) <> Pan.
Proof. intros A B m f s K' [H1 H2] Hf. unfold bind. destruct (m s) as [[a|e| |] s']; cbn in *; try discriminate; auto. Qed.

Definition late_if (s : pst S) : Prop := forall r, inp s = s_ "<?xml" ++ r -> late_percent (inp s).
Definition K (s : pst S) : Prop := good (hs s) /\ attsSpecial s = [] /\ suffix (inp s) bytes.
Definition D_ (s : pst S) : Prop := I_ s /\ no_doctype (inp s).

Theorem Parse_safe : forall n h, good h -> fst (Parse E S H n h bytes) <> Pan.
Proof.
  intros n h Hh. unfold Parse, parseDocument.
  eapply pre_bind with (K' := fun _ s => K s /\ inp s = bytes).
  { unfold emit, wrap, emit_raw. destruct (GE h (the_view S (init S h bytes)) ESetDocumentLocator Hh) as [G1 G2].
    cbn [hs init]. destruct (h_event _ _ _ _) as [h' r]. cbn [fst snd] in *. destruct r; try congruence; cbn; (split; [discriminate|]); intros a Ha; try discriminate;
    (split; [|reflexivity]); repeat split; auto; apply suffix_refl. }
  intros _ s [Hs Hi]. eapply pre_bind with (K' := fun _ s => K s /\ late_if s).
  { destruct Hs as (K1 & K2 & K3). destruct (detectEncoding (inp s)) as [[enc rest]|] eqn:Hd; cbn; (split; [discriminate|]); intros _ _.
    - rewrite Hi in *. apply detect_late in Hd as (u & Hb & Hu). split; [repeat split; auto; cbn; exists u; auto|].
      unfold late_if. cbn [inp set_inp]. intros r Hr. eapply late_drop; [|exact Hu]. rewrite <- Hb. apply (PC u r). congruence.
    - split; [repeat split; auto|]. intros r Hr. rewrite Hi in *. eapply (PC []). eauto. }
  clear s Hs Hi. intros detected s [Hs Hl]. eapply pre_bind with (K' := fun _ s => K s /\ late_if s).
  { cbn. split; [discriminate|auto]. }
  clear s Hs Hl. intros [|] s [Hs Hl]; [discriminate|].
  eapply pre_bind with (K' := fun b s => K s /\ (b = true -> late_percent (inp s))).
  { unfold mhas, lift, phas. cbn [fst snd]. split; [discriminate|]. intros a Ha. assert (Hb : a = has_prefix (s_ "<?xml") (inp s)) by congruence. subst a. split; [exact Hs|]. intros Hp. apply has_prefix_true in Hp as (r & Hr). eapply Hl; eauto. }
  clear s Hs Hl. intros decl s [Hs Hl]. eapply pre_bind with (K' := fun _ s => K s).
  { destruct decl; [|cbn; split; [discriminate|auto]]. specialize (Hl eq_refl). unfold bind, lift.
    assert (N1 : fst (pwrap (parseXMLDecl E) (inp s)) <> Pan).
    { pose proof (bend_xmldecl (inp s) Hl) as X. unfold pwrap. destruct (parseXMLDecl E (inp s)) as [[x|e| |] l']; cbn in *; congruence. }
    pose proof (psuf_wrap _ _ (psuf_xmldecl E OK) (inp s)) as N2.
    destruct (pwrap (parseXMLDecl E) (inp s)) as [[x|e| |] l]; cbn [fst snd] in *; try congruence; (split; [discriminate|]); intros a Ha; try discriminate.
    destruct Hs as (K1&K2&K3); unfold K; cbn; repeat split; auto; eapply suffix_trans; eauto. }
  clear s Hs Hl. intros _ s Hs. eapply pre_bind with (K' := fun _ s => D_ s).
  { unfold wrap, switchEncoding. destruct (Load _ _) as [c|]; cbn; (split; [discriminate|]); intros a Ha; [|discriminate].
    destruct Hs as (K1 & K2 & K3). destruct (BY c (inp s) K3). unfold D_, I_; cbn. auto. }
  clear s Hs. intros _ s [Hs Hd]. eapply pre_bind with (K' := fun _ s => D_ s).
  { destruct (safe_emit EStartDocument s Hs) as (A1 & A2 & _). split; auto. intros _ _. split; auto. eapply doctype_suffix; [exact Hd|apply msuf_emit]. }
  clear s Hs Hd. intros _ s [Hs Hd]. eapply pre_bind with (K' := fun _ s => D_ s).
  { destruct (safe_wrap _ _ _ (safe_misc n) s Hs) as (A1 & A2 & _). split; auto. intros _ _. split; auto. eapply doctype_suffix; [exact Hd|apply msuf_wrap, msuf_misc]. }
  clear s Hs Hd. intros _ s [Hs Hd]. eapply pre_bind with (K' := fun b s => b = false /\ I_ s).
  { unfold mhas, lift, phas. cbn [fst snd]. split; [discriminate|]. intros a Ha. assert (Hb : a = has_prefix (s_ "<!DOCTYPE") (inp s)) by congruence. subst a. split; [|exact Hs].
    destruct (has_prefix _ _) eqn:Hp; auto. apply has_prefix_true in Hp as (r & Hr). exfalso. apply (Hd [] r). exact Hr. }
  clear s Hs Hd. intros b s [-> Hs].
  match goal with |- fst (?m s) <> Pan => assert (X : safe any m); [|apply X; auto] end.
  eapply safe_bind with (Q := any); [fsolve|]. intros _ _. eapply safe_bind; [fsolve|]. intros _ _. eapply safe_bind; [fsolve|]. intros c _.
  destruct (negb _); [fsolve|]. eapply safe_bind; [apply safe_wrap, safe_element; [apply eff_content|apply safe_content]|]. intros _ _.
  eapply safe_bind; [apply safe_wrap, safe_misc|]. intros _ _. eapply safe_bind with (Q := any); [apply safe_get|]. intros fi _. destruct (negb fi); fsolve.
Qed.
End M.
End NP.
