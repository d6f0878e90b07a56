(* Termination with a document type declaration: what the productions of the
   internal subset consume, and that they end. *)
From Verif Require Import Base Utf8 Utf8Proofs Encoding XmlSpec EscapeProofs Scan ScanProofs Parser Effects LexProofs Grammar Loose TextProofs Complete Local LooseLex LooseProofs Term TermDtd.
From Coq Require Import ZifyBool.

Section F.
Variable E : env.
Hypothesis OK : env_ok E.
Hypothesis NC : forall c, isLetter E c || isDigit E c = true -> xml_char c = true.
Hypothesis OV : forall n l, over E n l = [].
Variable S : Type.
Variable H : handler S.

(* ---- literals ---- *)
Lemma take_stop : forall q l, ends q (dropW (fun c => isChar c && negb (c =? q)) l).
Proof. intros q l. pose proof (dropW_head (fun c => isChar c && negb (c =? q)) l) as Hh. unfold ends. destruct (dropW _ l) as [|c t]; [auto|]. rewrite legal_is. destruct (Z.eqb_spec c q); [auto|]. right. lia. Qed.
Lemma entval_form : forall l q o l', quoting q -> peek E l = q -> parseEntityValue E l = (o, l') ->
  exists run r0, l = q :: run ++ r0 /\ legals run /\ ~ In q run /\ ends q r0 /\ l' = (match r0 with c :: t => if c =? q then t else r0 | [] => [] end) /\
    match o with Ret (_, v) => decodeEntities (utf8 run) = Ret v | Oof => decodeEntities (utf8 run) = Oof | _ => True end.
Proof.
  intros l q o l' Hq Hp He. unfold parseEntityValue in He. assert (Hq' : (q =? 34) || (q =? 39) = true) by (unfold quoting in Hq; lia).
  apply (peek_is E OK NC) in Hp as (t & ->); [|unfold quoting in Hq; lia]. unfold pbind at 1, ppeek at 1 in He. cbn [peek hd] in He. rewrite Hq' in He.
  exists (takeW (fun c => isChar c && negb (c =? q)) t), (dropW (fun c => isChar c && negb (c =? q)) t).
  split; [rewrite takeW_dropW; auto|]. pose proof (takeW_all (fun c => isChar c && negb (c =? q)) t) as Ha. split.
  { eapply Forall_impl; [|exact Ha]. intros c Hc. cbv beta in Hc. rewrite legal_is. lia. }
  split. { intros Hi. rewrite Forall_forall in Ha. apply Ha in Hi. lia. }
  split; [apply take_stop|]. unfold pbind, ppeek, padvance, parseEntityValueInternal, pwrap, plift, pret in He. rewrite advance_1 in He.
  set (run := takeW _ t) in *. set (r0 := dropW _ t) in *. clearbody run r0. clear Ha.
  assert (Hx : exists l2, (if peek E r0 =? q then advance E 1 r0 else r0) = l2 /\ l2 = match r0 with c :: t => if c =? q then t else r0 | [] => [] end).
  { eexists. split; [reflexivity|]. destruct r0 as [|c r1]; cbn [peek hd].
    - destruct (_ =? _); [|auto]. unfold advance. cbn. apply OV.
    - destruct (c =? q); [apply advance_1|auto]. }
  destruct Hx as (l2 & Hx & ->). destruct (peek E r0 =? q).
  - destruct (decodeEntities (utf8 run)) as [v|e| |]; inversion He; subst; auto.
  - destruct (decodeEntities (utf8 run)) as [v|e| |]; inversion He; subst; auto.
Qed.
Lemma decodeEntities_runs : forall s, decodeEntities s <> Oof.
Proof.
  assert (X : forall n s, (List.length s <= n)%nat -> decodeEntities_fuel n s <> Oof); [|intros s; apply X; auto].
  induction n as [|n IH]; intros s Hs; [destruct s; [discriminate|cbn in Hs; lia]|]. destruct s as [|c t]; [discriminate|]. cbn [decodeEntities_fuel List.length] in *.
  destruct (has_prefix _ _).
  - assert (Y : forall acc v s, scrLoop acc v s <> Oof /\ forall x r, scrLoop acc v s = Ret (x, r) -> (List.length r <= List.length s)%nat).
    { intros acc v s. revert v. induction s as [|d s IHs]; intros v; cbn [scrLoop]; [split; discriminate|]. destruct (d =? 59); [split; [discriminate|]; intros x r Q; inversion Q; subst; cbn; lia|].
      destruct (acc v d) as [w|]; [|split; discriminate]. destruct (_ <? _); [split; discriminate|]. destruct (IHs w) as [I1 I2]. split; [auto|]. intros x r Q. apply I2 in Q. cbn [List.length]. lia. }
    assert (W : parseStringCharRef (c :: t) <> Oof /\ forall x r, parseStringCharRef (c :: t) = Ret (x, r) -> (List.length r <= List.length t)%nat).
    { unfold parseStringCharRef. destruct (negb _); [split; discriminate|]. cbn [skipn]. destruct t as [|c1 [|c2 t]]; cbn [skipn]; [split; discriminate|split; discriminate|].
      destruct (Y accHex 0 t) as [Y1 Y2]. destruct (Y accDec 0 (c2 :: t)) as [Y3 Y4]. destruct (c2 =? 120).
      - destruct (scrLoop accHex 0 t) as [[x r]| | |]; try (split; [congruence|discriminate]). specialize (Y2 x r eq_refl). destruct (isChar x); (split; [discriminate|]); intros a b Q; inversion Q; subst; cbn [List.length]; lia.
      - destruct (scrLoop accDec 0 (c2 :: t)) as [[x r]| | |]; try (split; [congruence|discriminate]). specialize (Y4 x r eq_refl). destruct (isChar x); (split; [discriminate|]); intros a b Q; inversion Q; subst; cbn [List.length] in *; lia. }
    destruct W as [W1 W2]. destruct (parseStringCharRef (c :: t)) as [[x r]| | |]; try congruence. specialize (W2 x r eq_refl).
    specialize (IH r ltac:(lia)). destruct (decodeEntities_fuel n r); congruence.
  - destruct (c =? 37); [discriminate|]. specialize (IH t ltac:(lia)). destruct (decodeEntities_fuel n t); congruence.
Qed.

(* ---- moving, in the parser ---- *)
Definition mmv {A} (m : M S A) : Prop := forall s a s', m s = (Ret a, s') -> moves (inp s) (inp s').
Lemma mmv_bind : forall A B (m : M S A) (f : A -> M S B), mmv m -> (forall a, mmv (f a)) -> mmv (bind S m f).
Proof. intros A B m f Hm Hf s b s' Hb. apply bind_inv in Hb as (a & s1 & H1 & H2). eapply moves_trans; [eapply Hm; eauto|eapply Hf; eauto]. Qed.
Lemma mmv_ret : forall A (a : A), mmv (ret S a). Proof. intros A a s x s' Hx. inversion Hx. apply moves_refl. Qed.
Lemma mmv_fail : forall A e, mmv (@failw S A e). Proof. intros A e s x s' Hx. discriminate. Qed.
Lemma mmv_lift : forall A (p : P A), pmv p -> mmv (lift S p).
Proof. intros A p Hp s a s' Ha. apply lift_inv in Ha as (l & Hl & ->). eapply Hp; eauto. Qed.
Lemma mmv_wrap : forall A (m : M S A), mmv m -> mmv (wrap S m). Proof. intros A m Hm s a s' Ha. apply wrap_inv in Ha. eapply Hm; eauto. Qed.
(* steps that leave the input alone *)
Definition stay {A} (m : M S A) : Prop := forall s a s', m s = (Ret a, s') -> inp s' = inp s.
Lemma stay_mmv : forall A (m : M S A), stay m -> mmv m. Proof. intros A m Hm s a s' Ha. rewrite (Hm _ _ _ Ha). apply moves_refl. Qed.
Lemma stay_bind : forall A B (m : M S A) (f : A -> M S B), stay m -> (forall a, stay (f a)) -> stay (bind S m f).
Proof. intros A B m f Hm Hf s b s' Hb. apply bind_inv in Hb as (a & s1 & H1 & H2). rewrite (Hf _ _ _ _ H2). eapply Hm; eauto. Qed.
Lemma stay_ret : forall A (a : A), stay (ret S a). Proof. intros A a s x s' Hx. inversion Hx. auto. Qed.
Lemma stay_fail : forall A e, stay (@fail S A e). Proof. intros A e s x s' Hx. discriminate. Qed.
Lemma stay_failw : forall A e, stay (@failw S A e). Proof. intros A e s x s' Hx. discriminate. Qed.
Lemma stay_pan : forall A, stay (@pan S A). Proof. intros A s x s' Hx. discriminate. Qed.
Lemma stay_get : forall A (f : pst S -> A), stay (get S f). Proof. intros A f s x s' Hx. inversion Hx. auto. Qed.
Lemma stay_mlift : forall A (o : outcome gerr A), stay (mlift S o). Proof. intros A f s x s' Hx. inversion Hx. auto. Qed.
Lemma stay_modify : forall f, (forall s, inp (f s) = inp s) -> stay (modify S f). Proof. intros f Hf s x s' Hx. inversion Hx. auto. Qed.
Lemma stay_wrap : forall A (m : M S A), stay m -> stay (wrap S m). Proof. intros A m Hm s a s' Ha. apply wrap_inv in Ha. eapply Hm; eauto. Qed.
Lemma stay_emit : forall e, stay (emit S H e).
Proof. intros e. apply stay_wrap. intros s a s' Ha. unfold emit_raw in Ha. destruct (h_event _ _ _ _) as [h' r]. destruct r; inversion Ha; auto. Qed.
Lemma stay_query : forall n, stay (queryEntity S H n).
Proof. intros n s a s' Ha. unfold queryEntity in Ha. destruct (h_getEntity _ _ _ _) as [h' [e b|]]; inversion Ha; auto. Qed.
Lemma stay_queryP : forall n, stay (queryPEntity S H n).
Proof. intros n s a s' Ha. unfold queryPEntity in Ha. destruct (h_getPEntity _ _ _ _) as [h' [e b|]]; inversion Ha; auto. Qed.
Lemma stay_getEntity : forall n, stay (getEntity S H n).
Proof. intros n s a s' Ha. unfold getEntity in Ha. destruct (_ =? _); [inversion Ha; auto|]. destruct (h_docEntity _ _ _); inversion Ha; auto. Qed.
Ltac stays := repeat first [ apply stay_ret | apply stay_fail | apply stay_failw | apply stay_pan | apply stay_get | apply stay_mlift | apply stay_emit | apply stay_query | apply stay_queryP | apply stay_getEntity
  | apply stay_modify; intros; reflexivity | apply stay_wrap
  | match goal with
    | |- forall _, _ => intro
    | |- stay (bind _ _ _) => apply stay_bind
    | |- stay (if ?b then _ else _) => destruct b
    | |- stay (match ?x with _ => _ end) => destruct x
    | |- stay (let _ := _ in _) => cbv zeta
    end ].
Lemma mpeek_bind : forall A (f : Z -> M S A) s, bind S (mpeek E S) f s = f (peek E (inp s)) s.
Proof. intros A f s. unfold bind, mpeek, lift, ppeek. destruct s; reflexivity. Qed.
Lemma adv_bind : forall A (f : unit -> M S A) c t s, inp s = c :: t -> bind S (madvance E S 1) f s = f tt (set_inp S t s).
Proof. intros A f c t s Hs. unfold bind, madvance, lift, padvance. rewrite Hs, advance_1. reflexivity. Qed.
Lemma mmv_peek : forall A (f : Z -> M S A), (forall s a s', f (peek E (inp s)) s = (Ret a, s') -> moves (inp s) (inp s')) -> mmv (bind S (mpeek E S) f).
Proof. intros A f Hf s a s' Ha. rewrite mpeek_bind in Ha. eauto. Qed.
Lemma mmv_adv : forall A (m : M S A) s c a s', bind S (madvance E S 1) (fun _ => m) s = (Ret a, s') -> peek E (inp s) = c -> 0 < c < 60000 -> ~ quoting c -> c <> 62 ->
  mmv m -> moves (inp s) (inp s').
Proof.
  intros A m s c a s' Ha Hp H0 H1 H2 Hm. apply (peek_is E OK NC) in Hp as (t & Ht); [|auto]. rewrite (adv_bind _ _ _ _ _ Ht) in Ha. rewrite Ht.
  eapply moves_trans; [apply moves_char; auto|]. apply Hm in Ha. exact Ha.
Qed.

(* an entity reference *)
Lemma entityRef_text : forall s e s', parseEntityRef E S H s = (Ret e, s') -> exists n, inp s = 38 :: n ++ 59 :: inp s' /\ word n.
Proof.
  intros s e s' Hm. unfold parseEntityRef in Hm. rewrite mpeek_bind in Hm. destruct (Z.eqb_spec (peek E (inp s)) 38) as [K|]; [|discriminate]. cbn [negb] in Hm.
  apply (peek_is E OK NC) in K as (t & Ht); [|lia]. rewrite (adv_bind _ _ _ _ _ Ht) in Hm. rewrite Ht. apply bind_inv in Hm as (nm & s1 & H1 & Hm).
  apply lift_inv in H1 as (l & Hl & ->). apply por_else_inv in Hl. cbn [inp set_inp] in Hl. apply (name_is_word E OK NC OV) in Hl as (n & -> & Hn & _).
  exists n. split; [|auto]. f_equal. f_equal. rewrite mpeek_bind in Hm. cbn [inp set_inp] in Hm. destruct (Z.eqb_spec (peek E l) 59) as [K|]; [|discriminate]. cbn [negb] in Hm.
  apply (peek_is E OK NC) in K as (t & ->); [|lia]. rewrite (adv_bind _ _ 59 t) in Hm by reflexivity. f_equal. symmetry.
  match type of Hm with ?m ?s0 = _ => assert (St : stay m) by (destruct (predefined nm); stays); rewrite (St _ _ _ Hm) end. reflexivity.
Qed.
Ltac plains := apply Forall_forall; let x := fresh in let Hx := fresh in intros x Hx; vm_compute in Hx; unfold quoting; repeat (destruct Hx as [<-|Hx]; [lia|]); destruct Hx.
(* a character reference *)
Lemma cref_text : forall acc base val, acc_ok acc base val -> (forall b, quoting b -> val b = None) -> forall l n v l', crefLoop acc (int32 n) l = (Some v, l') ->
  exists d, l = d ++ l' /\ Forall (fun c => ~ quoting c) d.
Proof.
  intros acc base val Hacc Hq. induction l as [|c t IH]; intros n v l' Hl; cbn [crefLoop] in Hl; [inversion Hl; exists []; auto|].
  destruct (Z.eqb_spec c 59) as [->|Hc]; [inversion Hl; subst; exists []; auto|].
  rewrite Hacc in Hl by auto. destruct (val c) as [d|] eqn:Hv; [|discriminate]. apply IH in Hl as (w & -> & Hw). exists (c :: w). split; [auto|]. constructor; [|auto].
  intros Hx. apply Hq in Hx. congruence.
Qed.
Lemma charref_text : forall l x l', parseCharRef E l = (Ret x, l') -> exists d, l = d ++ l' /\ Forall (fun c => ~ quoting c) d.
Proof.
  intros l x l' Hp. unfold parseCharRef in Hp. apply pbind_inv in Hp as (hex & l1 & H1 & Hp).
  apply pbind_inv in Hp as (dec & l2 & H2 & Hp). destruct dec; [|discriminate]. cbn [negb] in Hp.
  destruct (crefLoop (if hex then accHex else accDec) 0 l2) as [[v|] l3] eqn:Hc; [|discriminate].
  assert (Hp3 : (if peek E l3 =? 59 then advance E 1 l3 else l3) = l') by (cbv zeta in Hp; destruct (isChar v && _); inversion Hp; auto). clear Hp.
  assert (P0 : exists d, l = d ++ l2 /\ Forall (fun c => ~ quoting c) d).
  { apply pconsume_inv in H1 as [[-> ->]|(-> & -> & _)].
    - inversion H2; subst. exists (s_ "&#x"). split; [auto|]. plains.
    - apply pconsume_inv in H2 as [[_ ->]|(? & _)]; [|discriminate]. exists (s_ "&#"). split; [auto|]. plains. }
  assert (P1 : exists d, l2 = d ++ l3 /\ Forall (fun c => ~ quoting c) d).
  { change 0 with (int32 0) in Hc. destruct hex.
    - eapply (cref_text accHex 16 hex_val accHex_ok); [|exact Hc]. intros b [-> | ->]; reflexivity.
    - eapply (cref_text accDec 10 dec_val accDec_ok); [|exact Hc]. intros b [-> | ->]; reflexivity. }
  destruct P0 as (d0 & -> & F0). destruct P1 as (d1 & -> & F1). destruct (Z.eqb_spec (peek E l3) 59) as [K|].
  - apply (peek_is E OK NC) in K as (t & ->); [|lia]. rewrite advance_1 in Hp3. subst t. exists (d0 ++ d1 ++ [59]). split; [rewrite <- !app_assoc; reflexivity|].
    apply Forall_app. split; [auto|]. apply Forall_app. split; [auto|]. constructor; [unfold quoting; lia|constructor].
  - subst l3. exists (d0 ++ d1). split; [rewrite <- !app_assoc; reflexivity|]. apply Forall_app. auto.
Qed.
(* the value of an attribute does not contain its quote *)
Lemma value_text : forall n q nm b sp k s v s', quoting q -> attrValueLoop E S H n q nm b sp k s = (Ret v, s') -> exists a, inp s = a ++ inp s' /\ ~ In q a.
Proof.
  assert (G : forall (q : Z) a0 l l', quoting q -> Forall (fun c => ~ quoting c) a0 -> (exists a, l = a ++ l' /\ ~ In q a) -> exists a, a0 ++ l = a ++ l' /\ ~ In q a).
  { intros q a0 l l' Hq Ha (a & -> & Hn). exists (a0 ++ a). split; [apply app_assoc|]. intros Hi. apply in_app_iff in Hi as [Hi|Hi]; [|auto]. rewrite Forall_forall in Ha. apply Ha in Hi. auto. }
  induction n as [|n IH]; intros q nm b sp k s v s' Hq Hm; cbn [attrValueLoop] in Hm; [discriminate|]. rewrite mpeek_bind in Hm.
  destruct ((peek E (inp s) =? q) || negb (isChar (peek E (inp s))) || (peek E (inp s) =? 60)) eqn:Hs.
  { exists []. split; [|auto]. cbn [app]. symmetry. destruct (sp && nm).
    - match type of Hm with ?m s = _ => assert (St : stay m) by stays; exact (St _ _ _ Hm) end.
    - inversion Hm; auto. }
  assert (Hc : isChar (peek E (inp s)) = true) by lia. assert (Hqc : peek E (inp s) <> q) by lia. clear Hs.
  apply (peek_legal E OK) in Hc as (c & t & Ht & _). rewrite Ht in *. cbn [peek hd] in *.
  destruct (Z.eqb_spec c 38) as [->|].
  - apply bind_inv in Hm as (c2 & s1 & H1 & Hm). apply mpeekn_form in H1 as [-> ->]. destruct (_ =? 35).
    + apply bind_inv in Hm as (r & s1 & H1 & Hm). apply wrap_inv, lift_inv in H1 as (l & Hl & ->). apply charref_text in Hl as (d & Hd & Fd). rewrite <- Ht, Hd. apply G; auto.
      apply IH in Hm; auto.
    + apply bind_inv in Hm as (e & s1 & H1 & Hm). apply wrap_inv in H1. apply entityRef_text in H1 as (m & Hd & Fd). rewrite <- Ht, Hd.
      replace (38 :: m ++ 59 :: inp s1) with ((38 :: m ++ [59]) ++ inp s1) by (cbn [app]; rewrite <- app_assoc; reflexivity). apply G; auto.
      * constructor; [unfold quoting; lia|]. apply Forall_app. split; [|constructor; [unfold quoting; lia|constructor]]. eapply Forall_impl; [|exact Fd]. intros x Hx. cbv beta in Hx. tauto.
      * apply IH in Hm; auto.
  - assert (Z1 : forall v0 sp0, attrValueLoop E S H n q nm v0 sp0 k (set_inp S t s) = (Ret v, s') -> exists a, c :: t = a ++ inp s' /\ ~ In q a).
    { intros v0 sp0 Hx. apply IH in Hx as (a & Ha & Hn); [|auto]. cbn [inp set_inp] in Ha. exists (c :: a). split; [cbn; congruence|]. intros [<-|]; [congruence|auto]. }
    destruct ((c =? 32) || (c =? 13) || (c =? 10) || (c =? 9)).
    + cbv zeta in Hm. rewrite (adv_bind _ _ _ _ _ Ht) in Hm. eapply Z1; eauto.
    + rewrite (adv_bind _ _ _ _ _ Ht) in Hm. eapply Z1; eauto.
Qed.
Lemma mmv_default : forall n, mmv (parseDefaultDecl E S H n).
Proof.
  intros n. unfold parseDefaultDecl. apply mmv_bind; [apply mmv_lift, pmv_consume; plains|]. intros [|]; [apply mmv_ret|].
  apply mmv_bind; [apply mmv_lift, pmv_consume; plains|]. intros [|]; [apply mmv_ret|]. apply mmv_bind; [apply mmv_lift, pmv_consume; plains|]. intros fx.
  apply mmv_bind.
  { destruct fx; [|apply mmv_ret]. apply mmv_peek. intros s a s' Ha. destruct (negb _); [discriminate|]. refine ((_ : mmv _) s a s' Ha). apply mmv_bind; [apply mmv_lift, pmv_skip|]. intros; apply mmv_ret. }
  intros dt. apply mmv_peek. intros s a s' Ha. destruct ((peek E (inp s) =? 34) || (peek E (inp s) =? 39)) eqn:Hq; cbn [negb] in Ha; [|discriminate].
  assert (Hqu : quoting (peek E (inp s))) by (unfold quoting; lia).
  assert (K : exists t, inp s = peek E (inp s) :: t) by (apply (peek_is E OK NC); [unfold quoting in Hqu; lia|auto]). destruct K as (t & K).
  revert Ha K Hqu. generalize (peek E (inp s)). intros q Ha K Hqu. rewrite (adv_bind _ _ _ _ _ K) in Ha. apply bind_inv in Ha as (v & s1 & H1 & Ha). apply wrap_inv in H1. apply value_text in H1 as (x & Hx & Hn); [|auto].
  cbn [inp set_inp] in Hx. rewrite mpeek_bind in Ha. destruct (Z.eqb_spec (peek E (inp s1)) q) as [K1|]; [|discriminate]. cbn [negb] in Ha.
  apply (peek_is E OK NC) in K1 as (t1 & K1); [|unfold quoting in Hqu; lia]. rewrite (adv_bind _ _ _ _ _ K1) in Ha. inversion Ha; subst. rewrite K, K1. cbn [inp set_inp].
  exists (q :: x ++ [q]). split; [cbn; rewrite <- app_assoc; reflexivity|]. apply od_literal; auto. constructor.
Qed.
Lemma stay_addDefault : forall a b c, stay (addAttributeDefault S H a b c).
Proof.
  intros a b c. unfold addAttributeDefault. apply stay_bind; [apply stay_get|]. intros sp. destruct (lookupSpecial _ _); [apply stay_ret|]. destruct (prefix_local b) as [p l].
  intros s x s' Hx. destruct (h_createAttr _ _ _ _ _) as [h' [o|o| |]]; inversion Hx; auto.
Qed.
Lemma peek_62 : forall s : pst S, peek E (inp s) = 62 -> exists t, inp s = 62 :: t. Proof. intros s Hs. apply (peek_is E OK NC); [lia|auto]. Qed.
(* an accepted list of attributes *)
Lemma attlist_text : forall n elem s u s', no_paren (inp s) -> attlistLoop E S H n elem s = (Ret u, s') ->
  (peek E (inp s) = 62 /\ inp s' = inp s) \/ exists a, inp s = a ++ 62 :: inp s' /\ open_decl a.
Proof.
  induction n as [|n IH]; intros elem s u s' Hn Hm; cbn [attlistLoop] in Hm; [discriminate|]. rewrite mpeek_bind in Hm.
  destruct (Z.eqb_spec (peek E (inp s)) 62); [left; split; [assumption|]; inversion Hm; reflexivity|]. right.
  apply bind_inv in Hm as (att & s1 & H1 & Hm). apply lift_inv in H1 as (l1 & H1 & ->). apply por_else_inv, (pmv_name E OK NC OV) in H1.
  rewrite mpeek_bind in Hm. destruct (negb _); [discriminate|]. apply bind_inv in Hm as (b & s2 & H2 & Hm). apply lift_inv in H2 as (l2 & H2 & ->). apply pmv_skip in H2. cbn [inp set_inp] in H2.
  assert (M2 : moves (inp s) l2) by (eapply moves_trans; eauto). clear H1 H2.
  apply bind_inv in Hm as ([typ enum] & s3 & H3 & Hm). apply lift_inv in H3 as (l3 & H3 & ->). apply pwrap_inv in H3. cbn [inp set_inp] in H3.
  apply (proj2 (attrType_runs E OK NC OV n l2 (no_paren_moves _ _ Hn M2))) in H3. assert (M3 : moves (inp s) l3) by (eapply moves_trans; eauto). clear M2 H3.
  rewrite mpeek_bind in Hm. destruct (negb _); [discriminate|]. apply bind_inv in Hm as (b4 & s4 & H4 & Hm). apply lift_inv in H4 as (l4 & H4 & ->). apply pmv_skip in H4. cbn [inp set_inp] in H4.
  apply bind_inv in Hm as ([def dv] & s5 & H5 & Hm). apply wrap_inv in H5. apply mmv_default in H5. cbn [inp set_inp] in H5.
  assert (M5 : moves (inp s) (inp s5)) by (eapply moves_trans; [exact M3|]; eapply moves_trans; eauto). clear H4 H5 M3.
  apply bind_inv in Hm as (dv2 & s6 & H6 & Hm). assert (I6 : inp s6 = inp s5). { destruct (_ && _); [|inversion H6; auto]. eapply stay_mlift; eauto. }
  rewrite <- I6 in M5. clear H6 I6. rewrite mpeek_bind in Hm. apply bind_inv in Hm as (u1 & s7 & H7 & Hm).
  assert (M7 : moves (inp s6) (inp s7)).
  { destruct (_ =? _); [inversion H7; apply moves_refl|]. destruct (negb _); [discriminate|]. refine ((_ : mmv _) s6 u1 s7 H7). apply mmv_bind; [apply mmv_lift, pmv_skip|]. intros; apply mmv_ret. }
  assert (M8 : moves (inp s) (inp s7)) by (eapply moves_trans; eauto). clear M5 M7 H7.
  apply bind_inv in Hm as (u2 & s8 & H8 & Hm). apply stay_emit in H8. apply bind_inv in Hm as (u3 & s9 & H9 & Hm).
  assert (I9 : inp s9 = inp s8). { destruct (_ && _); [eapply stay_addDefault; eauto|inversion H9; auto]. }
  apply bind_inv in Hm as (u4 & s10 & H10 & Hm). assert (I10 : inp s10 = inp s9) by (inversion H10; auto).
  assert (M10 : moves (inp s) (inp s10)) by (rewrite I10, I9, H8; auto). clear H8 H9 H10 I9 I10 M8.
  rewrite mpeek_bind in Hm. destruct (Z.eqb_spec (peek E (inp s10)) 62) as [K|K].
  - apply peek_62 in K as (t & K). apply madvance_form in Hm. rewrite K, advance_1 in Hm. subst s'. destruct M10 as (w & Hw & Ow). exists w. cbn [inp set_inp]. rewrite Hw, K. auto.
  - apply IH in Hm as [[K2 _]|(w & Hw & Ow)]; [congruence| |eapply no_paren_moves; eauto]. destruct M10 as (w0 & Hw0 & Ow0). exists (w0 ++ w).
    split; [rewrite Hw0, Hw; apply app_assoc|apply open_app; auto].
Qed.
(* an accepted attribute list declaration *)
Lemma attlistDecl_text : forall n s u s',
  (forall a r, inp s = s_ "<!ATTLIST" ++ a ++ 40 :: r -> ~ open_decl a) ->
  (forall b n b' r, inp s = s_ "<!ATTLIST" ++ b ++ n ++ b' ++ 62 :: r -> blanks b -> word n -> ~ blanks b') ->
  parseAttributeListDecl E S H n s = (Ret u, s') ->
  (has_prefix (s_ "<!ATTLIST") (inp s) = false /\ inp s' = inp s) \/ exists a, inp s = s_ "<!" ++ 65 :: a ++ 62 :: inp s' /\ open_decl a.
Proof.
  intros n s u s' Hp He Hm. unfold parseAttributeListDecl in Hm. apply bind_inv in Hm as (ok & s1 & H1 & Hm).
  apply mconsume_form in H1 as [[-> (l & Hl & ->)]|(-> & -> & Hf)]; [|left; split; [auto|inversion Hm; auto]]. right. cbn [negb] in Hm.
  rewrite mpeek_bind in Hm. destruct (negb _); [discriminate|]. apply bind_inv in Hm as (b & s2 & H2 & Hm). apply mskip_form in H2 as (w & Hw & Bw & Hs2 & _). cbn [inp set_inp] in Hw.
  apply bind_inv in Hm as (el & s3 & H3 & Hm). apply lift_inv in H3 as (l3 & H3 & ->). apply pwrap_inv, (name_is_word E OK NC OV) in H3 as (nm & H3 & Wn & _).
  apply bind_inv in Hm as (b4 & s4 & H4 & Hm). apply mskip_form in H4 as (w4 & Hw4 & Bw4 & Hs4 & _). cbn [inp set_inp] in Hw4.
  assert (Hall : inp s = s_ "<!ATTLIST" ++ w ++ nm ++ w4 ++ inp s4) by (rewrite Hl, Hw, H3, Hw4; reflexivity).
  assert (Ho : open_decl (w ++ nm ++ w4)) by (apply open_app; [apply open_blanks; auto|]; apply open_app; [apply open_word; auto|apply open_blanks; auto]).
  assert (Hn : no_paren (inp s4)). { intros a r Ha Hx. apply (Hp ((w ++ nm ++ w4) ++ a) r); [rewrite Hall, Ha; rewrite <- !app_assoc; reflexivity|apply open_app; auto]. }
  apply attlist_text in Hm as [[K Hs]|(a & Ha & Oa)]; [| |auto].
  - exfalso. apply peek_62 in K as (t & K). refine (He w nm w4 t _ Bw Wn Bw4). rewrite Hall, K. reflexivity.
  - exists (s_ "TTLIST" ++ (w ++ nm ++ w4) ++ a). split; [rewrite Hall, Ha; cbn; rewrite <- !app_assoc; reflexivity|].
    apply open_app; [apply open_plain; plains|]. apply open_app; auto.
Qed.
(* an accepted entity declaration *)
Definition stuck (l : list Z) : Prop := match l with [] => True | c :: _ => legal c = false end.
Lemma stuck_skip : forall l b l', stuck l -> skipBlanks l = (Ret b, l') -> peek E l' <> 62.
Proof.
  intros l b l' Hs Hk. assert (Hx : peek E l' = peek E l).
  { inversion Hk; subst. destruct l as [|c t]; [reflexivity|]. cbn [stuck] in Hs. cbn [dropW]. rewrite <- blank_is. destruct (blank c) eqn:Hb; [|reflexivity].
    exfalso. unfold blank in Hb. unfold legal, xml_char in Hs. lia. }
  rewrite Hx. destruct l as [|c t]; cbn [peek hd]; [destruct (ok_eofr E OK) as [Q|Q]; rewrite Q; discriminate|]. cbn [stuck] in Hs. intros ->. discriminate.
Qed.
Lemma mmv_unquoted : forall nm, mmv (unquotedEntity E S H nm).
Proof.
  intros nm. unfold unquotedEntity. apply mmv_peek. intros s a s' Ha. destruct (negb _ && _); [discriminate|]. refine ((_ : mmv _) s a s' Ha).
  apply mmv_bind; [apply mmv_lift, pmv_skip|]. intros _. apply mmv_bind; [apply mmv_lift, pmv_consume; plains|]. intros [|].
  - apply mmv_bind; [apply mmv_lift, pmv_skip|]. intros b. destruct (negb b); [apply mmv_fail|]. apply mmv_bind; [apply mmv_lift, pmv_wrap, (pmv_name E OK NC OV)|]. intros; apply stay_mmv, stay_emit.
  - apply stay_mmv, stay_emit.
Qed.
Lemma entityDecl_text : forall s u s', parseEntityDecl E S H s = (Ret u, s') -> exists a, inp s = s_ "<!" ++ 69 :: a ++ 62 :: inp s' /\ open_decl a.
Proof.
  intros s u s' Hm. unfold parseEntityDecl in Hm. apply bind_inv in Hm as (ok & s1 & H1 & Hm).
  apply mconsume_form in H1 as [[-> (l & Hl & ->)]|(-> & -> & Hf)]; [|discriminate]. cbn [negb] in Hm.
  apply bind_inv in Hm as (b & s2 & H2 & Hm). apply lift_inv in H2 as (l2 & H2 & ->). apply pmv_skip in H2. cbn [inp set_inp] in H2. destruct (negb b); [discriminate|].
  rewrite mpeek_bind in Hm. apply bind_inv in Hm as (isP & s3 & H3 & Hm).
  assert (M3 : moves l2 (inp s3)).
  { cbn [inp set_inp] in H3. destruct (Z.eqb_spec (peek E l2) 37) as [K|]; [|inversion H3; apply moves_refl]. eapply mmv_adv in H3; [exact H3|exact K|lia|unfold quoting; lia|lia|].
    apply mmv_bind; [apply mmv_lift, pmv_skip|]. intros b2. destruct (negb b2); [apply mmv_fail|apply mmv_ret]. }
  clear H3. apply bind_inv in Hm as (nm & s4 & H4 & Hm). apply lift_inv in H4 as (l4 & H4 & ->). apply pwrap_inv, (pmv_name E OK NC OV) in H4. destruct (mem_byte _ _); [discriminate|].
  apply bind_inv in Hm as (b5 & s5 & H5 & Hm). apply lift_inv in H5 as (l5 & H5 & ->). apply pmv_skip in H5. cbn [inp set_inp] in H5. destruct (negb b5); [discriminate|].
  assert (M5 : moves l l5) by (eapply moves_trans; [exact H2|]; eapply moves_trans; [exact M3|]; eapply moves_trans; eauto). clear H2 M3 H4 H5.
  rewrite mpeek_bind in Hm. cbn [inp set_inp] in Hm. apply bind_inv in Hm as (lit & s6 & H6 & Hm).
  assert (M6 : moves l5 (inp s6) \/ stuck (inp s6)).
  { destruct ((peek E l5 =? 34) || (peek E l5 =? 39)) eqn:Hq.
    - assert (Hqu : quoting (peek E l5)) by (unfold quoting; lia). apply bind_inv in H6 as (r & s7 & H7 & H6). apply lift_inv in H7 as (l7 & H7 & ->). cbn [inp set_inp] in H7.
      assert (Ho : exists o, parseEntityValue E l5 = (o, l7)) by (apply ptry_inv in H7 as [(a & _ & H7)|(e & _ & H7)]; eauto). destruct Ho as (o & Ho).
      apply (entval_form l5 (peek E l5)) in Ho as (run & r0 & Hr & _ & Hn & He & Hl7 & _); [|auto|auto].
      assert (Hi : inp s6 = l7). { destruct r as [e|[x y]]; [inversion H6; auto|]. apply bind_inv in H6 as (u6 & s8 & H8 & H6). apply stay_emit in H8. inversion H6; subst. exact H8. }
      rewrite Hi. subst l7. destruct r0 as [|c t]; [right; exact I|]. cbn [ends] in He. destruct (Z.eqb_spec c (peek E l5)) as [->|Hc]; [left|right; cbn; tauto].
      rewrite Hr at 1. exists (peek E l5 :: run ++ [peek E l5]). split; [cbn [app]; rewrite <- app_assoc; reflexivity|]. apply od_literal; auto. constructor.
    - left. match type of H6 with ?m ?s0 = _ => change l5 with (inp s0); refine ((_ : mmv m) s0 lit s6 H6) end. apply mmv_bind; [|intros; apply mmv_ret].
      destruct isP; [apply mmv_ret|apply mmv_unquoted]. }
  clear H6. apply bind_inv in Hm as (b7 & s7 & H7 & Hm). apply lift_inv in H7 as (l7 & H7 & ->). rewrite mpeek_bind in Hm. cbn [inp set_inp] in Hm.
  destruct (Z.eqb_spec (peek E l7) 62) as [K|]; [|discriminate]. cbn [negb] in Hm. destruct M6 as [M6|M6]; [|exfalso; eapply stuck_skip; eauto].
  apply pmv_skip in H7. assert (M7 : moves l l7) by (eapply moves_trans; [exact M5|]; eapply moves_trans; eauto).
  apply (peek_is E OK NC) in K as (t & ->); [|lia]. rewrite (adv_bind _ _ 62 t) in Hm by reflexivity.
  assert (Hs' : inp s' = t).
  { match type of Hm with ?m _ = _ => assert (St : stay m) by (apply stay_bind; [destruct isP; [apply stay_queryP|apply stay_query]|]; intros a; destruct (fst a); [apply stay_modify; reflexivity|apply stay_ret]) end.
    rewrite (St _ _ _ Hm). reflexivity. }
  rewrite Hs'. destruct M7 as (w & -> & Ow). exists (s_ "NTITY" ++ w). split; [rewrite Hl; cbn; reflexivity|]. apply open_app; [apply open_plain; plains|auto].
Qed.
Lemma peref_text : forall s u s', parsePEReference E S H s = (Ret u, s') ->
  (inp s' = inp s /\ peek E (inp s) <> 37) \/ exists a, inp s = 37 :: a ++ 59 :: inp s' /\ ~ In 59 a.
Proof.
  intros s u s' Hm. unfold parsePEReference in Hm. rewrite mpeek_bind in Hm. destruct (Z.eqb_spec (peek E (inp s)) 37) as [K|]; cbn [negb] in Hm; [right|left; split; [inversion Hm; auto|auto]].
  apply (peek_is E OK NC) in K as (t & K); [|lia]. rewrite (adv_bind _ _ _ _ _ K) in Hm. apply bind_inv in Hm as (nm & s1 & H1 & Hm). apply lift_inv in H1 as (l & H1 & ->).
  apply pwrap_inv, (name_is_word E OK NC OV) in H1 as (n & H1 & _ & _ & Hn & _). cbn [inp set_inp] in H1. subst t. rewrite mpeek_bind in Hm. cbn [inp set_inp] in Hm.
  destruct (Z.eqb_spec (peek E l) 59) as [K1|]; cbn [negb] in Hm; [|discriminate]. apply (peek_is E OK NC) in K1 as (t & ->); [|lia]. rewrite (adv_bind _ _ 59 t) in Hm by reflexivity.
  exists n. split; [|auto]. rewrite K. f_equal. f_equal. f_equal. symmetry.
  match type of Hm with ?m _ = _ => assert (St : stay m) by stays; rewrite (St _ _ _ Hm) end. reflexivity.
Qed.

(* ---- the internal subset ---- *)
Variable L : nat.
Definition inner (l : list Z) : Prop := (forall its r, l = its ++ r -> items its -> ~ unknown r) /\ subset_ok E L l.
Lemma inner_item : forall x l, inner (x ++ l) -> item x -> inner l.
Proof.
  intros x l [H1 H2] Hx. split; [|eapply subset_suffix; [exact H2|exists x; auto]]. intros its r -> (xs & Fx & ->). apply (H1 (x ++ concat xs)); [rewrite app_assoc; auto|].
  exists (x :: xs). split; [constructor; auto|auto].
Qed.
Lemma inner_nil : forall l, inner l -> inner [].
Proof.
  intros l [H1 H2]. split; [|eapply subset_suffix; [exact H2|exists l; rewrite app_nil_r; auto]]. intros its r Hr _. symmetry in Hr. apply app_eq_nil in Hr as [_ ->]. intros [[] _].
Qed.
Lemma inner_blanks : forall w l, inner (w ++ l) -> blanks w -> inner l.
Proof. induction w as [|c w IH]; intros l Hi Hb; [auto|]. inversion Hb; subst. apply IH; [|auto]. apply (inner_item [c]); [auto|]. apply it_blank; auto. Qed.
(* what is consumed is an item, or everything *)
Definition goes (l l' : list Z) : Prop := (exists x, l = x ++ l' /\ x <> [] /\ item x) \/ (l' = [] /\ l <> []).
Lemma goes_inner : forall l l', goes l l' -> inner l -> inner l' /\ (List.length l' < List.length l)%nat.
Proof.
  intros l l' [(x & -> & Hx & Ix)|[-> Hl]] Hi; (split; [|]).
  - eapply inner_item; eauto.
  - rewrite app_length. destruct x; [congruence|cbn; lia].
  - eapply inner_nil; eauto.
  - destruct l; [congruence|cbn; lia].
Qed.
Lemma no_qgt : forall u x, ~ In 63 u -> ~ contains (s_ "?>") x -> ~ contains (s_ "?>") (u ++ x).
Proof.
  induction u as [|c u IH]; intros x Hu Hx; [auto|]. intros (a & b & Hab). destruct a as [|a0 a]; cbn in Hab.
  - inversion Hab; subst. apply Hu; left; auto.
  - inversion Hab as [[H1 H2]]. apply (IH x); [intros Hi; apply Hu; right; auto|auto|]. exists a, b. exact H2.
Qed.
Lemma pi_goes : forall s u s', parsePI E S H s = (Ret u, s') -> goes (inp s) (inp s').
Proof.
  intros s u s' Hm. unfold parsePI in Hm. apply bind_inv in Hm as ([t d] & s1 & H1 & Hm). apply lift_inv in H1 as (l & H1 & ->).
  assert (Hi : inp s' = l) by (match type of Hm with ?m _ = _ => assert (St : stay m) by stays; rewrite (St _ _ _ Hm) end; reflexivity). rewrite Hi. clear Hm.
  apply (pi_form E OK NC OV) in H1 as (n & z & Hn & Hz & _ & Hl).
  assert (N63 : ~ In 63 (n ++ z)).
  { intros Hx. apply in_app_iff in Hx as [Hx|Hx].
    - destruct Hn as [Hn _]. destruct n as [|c r]; [destruct Hx|].
      assert (F : Forall (fun x => x <> 63) (c :: r)); [|rewrite Forall_forall in F; apply (F 63 Hx); auto].
      destruct Hn as [[Hn1 Hn2] _]. constructor.
      + destruct (name_char_not E OK NC c) as (_ & _ & _ & _ & _ & K); [unfold name_start in Hn1; lia|exact K].
      + eapply Forall_impl; [|exact Hn2]. intros y Hy. cbv beta in Hy. destruct (name_char_not E OK NC y) as (_ & _ & _ & _ & _ & K); [unfold name_part in Hy; lia|exact K].
    - destruct Hz as [-> |[-> _]]; [destruct Hx|]. destruct Hx as [Hx|[]]. discriminate. }
  left. destruct Hl as [[-> _]|(b & x & -> & _ & Hb & Hx & _)].
  - exists (s_ "<?" ++ (n ++ z) ++ s_ "?>"). split; [rewrite <- !app_assoc; reflexivity|]. split; [discriminate|]. apply it_pi.
    rewrite <- (app_nil_r (n ++ z)). apply no_qgt; [auto|]. intros (a & b & Hab). destruct a; discriminate.
  - exists (s_ "<?" ++ (((n ++ z) ++ b) ++ x) ++ s_ "?>"). split; [rewrite <- !app_assoc; reflexivity|]. split; [discriminate|]. apply it_pi. apply no_qgt; [|apply Hx].
    intros Hi2. apply in_app_iff in Hi2 as [Hi2|Hi2]; [auto|]. unfold blanks in Hb. rewrite Forall_forall in Hb. apply Hb in Hi2. discriminate.
Qed.
Lemma comment_goes : forall s u s', parseComment E S H s = (Ret u, s') -> goes (inp s) (inp s').
Proof.
  intros s u s' Hm. unfold parseComment in Hm. apply bind_inv in Hm as (v & s1 & H1 & Hm). apply lift_inv in H1 as (l & H1 & ->).
  assert (Hi : inp s' = l) by (match type of Hm with ?m _ = _ => assert (St : stay m) by stays; rewrite (St _ _ _ Hm) end; reflexivity). rewrite Hi. clear Hm.
  apply (scanComment_form E OK NC OV) in H1 as [(b & b' & -> & (_ & Hb & _) & _)|[(b & c & -> & (Hb & _) & Hc)|(b & -> & -> & _)]].
  - left. exists (s_ "<!--" ++ b ++ s_ "-->"). split; [rewrite <- !app_assoc; reflexivity|]. split; [discriminate|]. apply it_comment; auto.
  - left. exists (s_ "<!--" ++ b ++ [c]). split; [rewrite <- !app_assoc; reflexivity|]. split; [discriminate|]. apply it_cut; auto.
  - right. split; [auto|discriminate].
Qed.
Lemma decl_goes : forall c l l', In c [65; 69] -> (exists a, l = s_ "<!" ++ c :: a ++ 62 :: l' /\ open_decl a) -> goes l l'.
Proof.
  intros c l l' Hc (a & -> & Ha). left. exists (s_ "<!" ++ c :: a ++ [62]). split; [cbn; rewrite <- app_assoc; reflexivity|]. split; [discriminate|]. apply it_decl; auto.
Qed.
Lemma element_goes : forall n s u s', parseElementDecl E S H n s = (Ret u, s') -> goes (inp s) (inp s').
Proof.
  intros n s u s' Hm. unfold parseElementDecl in Hm. apply bind_inv in Hm as ([[nm typ] ct] & s1 & H1 & Hm). apply lift_inv in H1 as (l & H1 & ->).
  apply stay_emit in Hm. rewrite Hm. cbn [inp set_inp]. apply (element_item E OK NC OV) in H1 as (a & -> & Ha). apply (decl_goes 69); [cbn; auto|]. exists a; auto.
Qed.
Lemma entity_goes : forall s u s', parseEntityDecl E S H s = (Ret u, s') -> goes (inp s) (inp s').
Proof. intros s u s' Hm. apply entityDecl_text in Hm. apply (decl_goes 69); [cbn; auto|auto]. Qed.
Lemma attlist_goes : forall n s u s', inner (inp s) -> parseAttributeListDecl E S H n s = (Ret u, s') ->
  (has_prefix (s_ "<!ATTLIST") (inp s) = false /\ inp s' = inp s) \/ goes (inp s) (inp s').
Proof.
  intros n s u s' [_ Hi] Hm. destruct (Hi [] _ eq_refl) as (_ & C2 & C3 & _). apply attlistDecl_text in Hm as [Hm|Hm]; [auto| |auto|auto].
  right. apply (decl_goes 65); [cbn; auto|auto].
Qed.
Lemma peref_goes : forall s u s', parsePEReference E S H s = (Ret u, s') -> (inp s' = inp s /\ peek E (inp s) <> 37) \/ goes (inp s) (inp s').
Proof.
  intros s u s' Hm. apply peref_text in Hm as [Hm|(a & Ha & Hn)]; [auto|]. right. left. exists (37 :: a ++ [59]). split; [rewrite Ha; cbn; rewrite <- app_assoc; reflexivity|].
  split; [discriminate|]. apply it_pe; auto.
Qed.
Definition ready (l : list Z) : Prop := match l with [] => False | c :: _ => blank c = false /\ c <> 93 end.
(* one declaration: the subset goes on, and something is consumed *)
Lemma markup_goes : forall n s u s', inner (inp s) -> parseMarkupDecl E S H n s = (Ret u, s') ->
  inner (inp s') /\ (List.length (inp s') <= List.length (inp s))%nat /\ (ready (inp s) -> (List.length (inp s') < List.length (inp s))%nat).
Proof.
  intros n s u s' Hi Hm. unfold parseMarkupDecl in Hm.
  assert (Hu : ~ unknown (inp s)). { destruct Hi as [Hi _]. apply (Hi [] (inp s)); [auto|]. exists []. split; [constructor|auto]. }
  assert (G : forall (s1 : pst S), goes (inp s) (inp s1) -> inner (inp s1) /\ (List.length (inp s1) <= List.length (inp s))%nat /\ (ready (inp s) -> (List.length (inp s1) < List.length (inp s))%nat)).
  { intros s1 Hg. apply goes_inner in Hg as [G1 G2]; [|auto]. split; [auto|]. split; [lia|auto]. }
  assert (P : forall (s1 s2 : pst S) v, inner (inp s1) -> wrap S (parsePEReference E S H) s1 = (Ret v, s2) -> inner (inp s2) /\ (List.length (inp s2) <= List.length (inp s1))%nat).
  { intros s1 s2 v I1 Hx. apply wrap_inv in Hx. apply peref_goes in Hx as [[-> _]|Hg]; [auto|]. apply goes_inner in Hg as [G1 G2]; [|auto]. split; [auto|lia]. }
  assert (Q : forall (s1 : pst S), wrap S (parsePEReference E S H) s = (Ret u, s1) -> (ready (inp s) -> peek E (inp s) = 37) -> inner (inp s1) /\ (List.length (inp s1) <= List.length (inp s))%nat /\ (ready (inp s) -> (List.length (inp s1) < List.length (inp s))%nat)).
  { intros s1 Hx Hr. pose proof Hx as Hx'. apply P in Hx' as [P1 P2]; [|auto]. split; [auto|]. split; [auto|]. intros R. apply wrap_inv in Hx. apply peref_goes in Hx as [[_ K]|Hg]; [exfalso; auto|].
    apply goes_inner in Hg as [G1 G2]; auto. }
  (* what is not unknown *)
  assert (Hk : ready (inp s) -> peek E (inp s) = 37 \/ exists k, In k [s_ "<?"; s_ "<!-"; s_ "<!EL"; s_ "<!EN"; s_ "<!ATTLIST"] /\ has_prefix k (inp s) = true).
  { intros Hr. destruct (existsb (fun k => has_prefix k (inp s)) [s_ "<?"; s_ "<!-"; s_ "<!EL"; s_ "<!EN"; s_ "<!ATTLIST"]) eqn:He.
    - apply existsb_exists in He as (k & Hk1 & Hk2). eauto.
    - destruct (Z.eqb_spec (peek E (inp s)) 37) as [|N]; [auto|]. exfalso. apply Hu. split.
      + unfold ready in Hr. destruct (inp s) as [|c t]; [destruct Hr|]. cbn [peek hd] in N. tauto.
      + intros k Hk1 r Hkr. assert (Hx : existsb (fun k => has_prefix k (inp s)) [s_ "<?"; s_ "<!-"; s_ "<!EL"; s_ "<!EN"; s_ "<!ATTLIST"] = true); [|congruence].
        apply existsb_exists. exists k. split; [auto|]. rewrite Hkr. apply has_prefix_app. }
  destruct (Z.eqb_spec (peek E (inp s)) 60) as [K|K].
  2:{ apply Q; auto. intros Hr. apply Hk in Hr as [Hr|(k & Ik & Pk)]; [auto|]. exfalso. apply K. apply has_prefix_true in Pk as (r & Pk).
      cbn in Ik. repeat (destruct Ik as [<-|Ik]; [rewrite Pk; reflexivity|]). destruct Ik. }
  apply (peek_is E OK NC) in K as (t & K); [|lia].
  destruct (Z.eqb_spec (peekn E 2 (inp s)) 33) as [K2|K2].
  2:{ destruct (Z.eqb_spec (peekn E 2 (inp s)) 63) as [K3|K3]; [apply G; eapply pi_goes; eauto|]. apply Q; auto. intros Hr. apply Hk in Hr as [Hr|(k & Ik & Pk)]; [auto|]. exfalso.
      apply has_prefix_true in Pk as (r & Pk). cbn in Ik. repeat (destruct Ik as [<-|Ik]; [rewrite Pk in K2, K3; first [apply K2; reflexivity|apply K3; reflexivity]|]). destruct Ik. }
  cbv zeta in Hm. apply bind_inv in Hm as (u1 & s1 & H1 & Hm).
  assert (D1 : inner (inp s1) /\ (List.length (inp s1) <= List.length (inp s))%nat /\ (ready (inp s) -> (List.length (inp s1) < List.length (inp s))%nat)).
  { assert (N : forall k, In k [s_ "<?"; s_ "<!-"; s_ "<!EL"; s_ "<!EN"; s_ "<!ATTLIST"] -> has_prefix k (inp s) = true ->
      peekn E 3 (inp s) = 45 \/ (peekn E 3 (inp s) = 69 /\ (peekn E 4 (inp s) = 76 \/ peekn E 4 (inp s) = 78)) \/ (peekn E 3 (inp s) = 65 /\ has_prefix (s_ "<!ATTLIST") (inp s) = true)).
    { intros k Ik Pk. pose proof Pk as Pk'. apply has_prefix_true in Pk' as (r & Pr). cbn in Ik.
      destruct Ik as [<-|[<-|[<-|[<-|[<-|[]]]]]]; rewrite Pr in *; [discriminate|left|right; left; split; [|left]|right; left; split; [|right]|right; right; split; [|auto]]; reflexivity. }
    assert (Same : forall (s2 : pst S), inp s2 = inp s -> ~ ready (inp s) -> inner (inp s2) /\ (List.length (inp s2) <= List.length (inp s))%nat /\ (ready (inp s) -> (List.length (inp s2) < List.length (inp s))%nat)).
    { intros s2 -> Hr. split; [auto|]. split; [lia|]. intros R; contradiction. }
    assert (R37 : ready (inp s) -> peekn E 3 (inp s) = 45 \/ (peekn E 3 (inp s) = 69 /\ (peekn E 4 (inp s) = 76 \/ peekn E 4 (inp s) = 78)) \/ (peekn E 3 (inp s) = 65 /\ has_prefix (s_ "<!ATTLIST") (inp s) = true)).
    { intros Hr. apply Hk in Hr as [Hr|(k & Ik & Pk)]; [rewrite K in Hr; discriminate|eauto]. }
    destruct (Z.eqb_spec (peekn E 3 (inp s)) 69) as [K3|K3].
    - destruct (Z.eqb_spec (peekn E 4 (inp s)) 76) as [K4|K4]; [apply wrap_inv in H1; apply G; eapply element_goes; eauto|].
      destruct (Z.eqb_spec (peekn E 4 (inp s)) 78) as [K5|K5]; [apply wrap_inv in H1; apply G; eapply entity_goes; eauto|].
      apply Same; [inversion H1; auto|]. intros Hr. apply R37 in Hr as [Q1|[[_ [Q1|Q1]]|[Q1 _]]]; congruence.
    - destruct (Z.eqb_spec (peekn E 3 (inp s)) 65) as [K4|K4].
      + apply wrap_inv in H1. apply attlist_goes in H1 as [[Hf Hs]|Hg]; [|apply G; auto|auto]. apply Same; [auto|]. intros Hr. apply R37 in Hr as [Q1|[[Q1 _]|[_ Q1]]]; congruence.
      + destruct (Z.eqb_spec (peekn E 3 (inp s)) 45) as [K5|K5]; [apply wrap_inv in H1; apply G; eapply comment_goes; eauto|].
        apply Same; [inversion H1; auto|]. intros Hr. apply R37 in Hr as [Q1|[[Q1 _]|[Q1 _]]]; congruence. }
  destruct D1 as (D1 & D2 & D3). apply P in Hm as [P1 P2]; [|auto]. split; [auto|]. split; [lia|]. intros R. specialize (D3 R). lia.
Qed.
End F.
