(* Making an attribute in a document that declares no entity: it comes to an end
   for every value, and does not crash.  [kept0]: the cells below n0 are as they
   were, and the links of the others to their next siblings go upwards. *)
From Coq Require Import FMapPositive.
From Verif Require Import Base Utf8 Scan Heap TreeShape TreeOps.
Local Open Scope positive_scope.

Definition ends {A} (m : HM A) (h : heap) (P : A -> heap -> Prop) : Prop :=
  match m h with (Ret a, h') => P a h' | (Fail _, _) => True | _ => False end.
Lemma ends_bind {A B} (m : HM A) (f : A -> HM B) h (P : B -> heap -> Prop) : ends m h (fun a h' => ends (f a) h' P) -> ends (hbind m f) h P.
Proof. unfold ends, hbind. destruct (m h) as [[a|e| |] h']; auto. Qed.
Lemma ends_weak {A} (m : HM A) h (P Q : A -> heap -> Prop) : ends m h P -> (forall a h', P a h' -> Q a h') -> ends m h Q.
Proof. unfold ends. destruct (m h) as [[a|e| |] h']; auto. Qed.
Lemma ends_ret {A} (a : A) h (P : A -> heap -> Prop) : P a h -> ends (hret a) h P.
Proof. auto. Qed.
Lemma ends_fail {A} s h (P : A -> heap -> Prop) : ends (hfail s) h P.
Proof. exact I. Qed.
Lemma ends_getc p c h (P : cell -> heap -> Prop) : hget h p = Some c -> P c h -> ends (getc p) h P.
Proof. intros E H. unfold ends, getc. rewrite E. exact H. Qed.
Lemma ends_upd f p c h (P : unit -> heap -> Prop) : hget h p = Some c -> P tt (hset h p (f c)) -> ends (upd f p) h P.
Proof. intros E H. unfold ends. rewrite (upd_run _ _ _ _ E). exact H. Qed.
Lemma ends_ignore (m : HM unit) h (P : unit -> heap -> Prop) : ends m h P -> (forall e h', m h = (Fail e, h') -> P tt h') -> ends (hignore m) h P.
Proof. unfold ends, hignore. destruct (m h) as [[[]|e| |] h'] eqn:E; auto. intros _ H. exact (H e h' eq_refl). Qed.

(* the same, and it succeeds *)
Definition does {A} (m : HM A) (h : heap) (P : A -> heap -> Prop) : Prop := exists a h', m h = (Ret a, h') /\ P a h'.
Lemma does_bind {A B} (m : HM A) (f : A -> HM B) h (P : B -> heap -> Prop) : does m h (fun a h' => does (f a) h' P) -> does (hbind m f) h P.
Proof. intros (a & h' & E & b & h2 & E2 & H). exists b, h2. unfold hbind. rewrite E. auto. Qed.
Lemma does_ret {A} (a : A) h (P : A -> heap -> Prop) : P a h -> does (hret a) h P.
Proof. intro H. exists a, h. auto. Qed.
Lemma does_getc p c h (P : cell -> heap -> Prop) : hget h p = Some c -> P c h -> does (getc p) h P.
Proof. intros E H. exists c, h. unfold getc. rewrite E. auto. Qed.
Lemma does_upd f p c h (P : unit -> heap -> Prop) : hget h p = Some c -> P tt (hset h p (f c)) -> does (upd f p) h P.
Proof. intros E H. eexists _, _. rewrite (upd_run _ _ _ _ E). split; [reflexivity|exact H]. Qed.

Lemma refDigits_short acc : forall l v w t, refDigits acc v l = Some (w, t) -> (List.length t < List.length l)%nat.
Proof.
  induction l as [|c l IH]; intros v w t; cbn [refDigits]; [discriminate|]. destruct (c =? 59)%Z.
  - intros [= _ <-]. cbn. lia.
  - destruct (acc v c) as [v'|]; [|discriminate]. intro H. apply IH in H. cbn. lia.
Qed.
Lemma upToSemi_short : forall l a t, upToSemi l = Some (a, t) -> (List.length t < List.length l)%nat.
Proof.
  induction l as [|c l IH]; intros a t; cbn [upToSemi]; [discriminate|]. destruct (c =? 59)%Z.
  - intros [= _ <-]. cbn. lia.
  - destruct (upToSemi l) as [[a' t']|]; [|discriminate]. intros [= _ <-]. specialize (IH a' t' eq_refl). cbn. lia.
Qed.

Section undeclared.
Variables (h0 : heap) (d : ptr).
Hypothesis Hok : hok h0.
Hypothesis Hno : forall nm, GetEntity (Some d) nm h0 = (Ret None, h0).
Local Notation n0 := (nxt h0).

Definition upwards (h : heap) (p : ptr) (o : option ptr) : Prop :=
  match o with Some q => p < q /\ q < nxt h /\ hget h q <> None | None => True end.
Definition kept0 (h : heap) : Prop :=
  (forall p, p < n0 -> hget h p = hget h0 p) /\ n0 <= nxt h /\ hok h /\
  (forall p c, n0 <= p -> hget h p = Some c -> upwards h p (l_next (lk c))).
(* a new node without a next sibling and a parent *)
Definition loose0 (h : heap) (p : ptr) : Prop :=
  n0 <= p /\ exists c, hget h p = Some c /\ l_next (lk c) = None /\ l_par (lk c) = None.
Definition tail0 (h : heap) (rl : option ptr * option ptr) : Prop :=
  match rl with
  | (None, None) => True
  | (Some f, Some l) => n0 <= f /\ hget h f <> None /\ loose0 h l
  | _ => False
  end.

Lemma kept0_start : kept0 h0.
Proof. split; [auto|]. split; [lia|]. split; [exact Hok|]. intros p c Hp E. apply Hok in E. lia. Qed.
Lemma kept0_new h c : kept0 h -> l_next (lk c) = None -> kept0 (with_new h c).
Proof.
  intros (A & B & C & D) Hc. split; [|split; [|split]].
  - intros p Hp. rewrite hget_new. destruct (Pos.eqb_spec p (nxt h)); [lia|auto].
  - cbn. lia.
  - intros p c'. rewrite hget_new. destruct (Pos.eqb_spec p (nxt h)) as [->|]; cbn; [lia|]. intro E. apply C in E. lia.
  - intros p c' Hp. rewrite hget_new. destruct (Pos.eqb_spec p (nxt h)) as [->|].
    + intros [= <-]. rewrite Hc. exact I.
    + intro E. specialize (D p c' Hp E). destruct (l_next (lk c')) as [q|]; [|exact I]. cbn in *. destruct D as (D1 & D2 & D3).
      split; [exact D1|]. split; [lia|]. rewrite hget_new. destruct (Pos.eqb_spec q (nxt h)); [discriminate|exact D3].
Qed.
Lemma hget_set' h p c q : hget (hset h p c) q = if Pos.eqb q p then Some c else hget h q.
Proof.
  unfold hget, hset. cbn [cells]. destruct (Pos.eqb_spec q p) as [->|Hne].
  - apply PositiveMap.gss.
  - apply PositiveMap.gso. congruence.
Qed.
Lemma kept0_set h p c c' : kept0 h -> n0 <= p -> hget h p = Some c -> upwards h p (l_next (lk c')) -> kept0 (hset h p c').
Proof.
  intros (A & B & C & D) Hp E Hu.
  assert (G : forall z o, upwards h z o -> upwards (hset h p c') z o).
  { intros z [q|]; [|auto]. cbn. intros (U1 & U2 & U3). split; [exact U1|]. split; [exact U2|]. rewrite hget_set'. destruct (Pos.eqb q p); [discriminate|exact U3]. }
  split; [|split; [|split]].
  - intros q Hq. rewrite hget_set'. destruct (Pos.eqb_spec q p); [lia|auto].
  - exact B.
  - intros q k. rewrite hget_set'. destruct (Pos.eqb_spec q p) as [->|].
    + intros _. apply C in E. exact E.
    + apply C.
  - intros q k Hq. rewrite hget_set'. destruct (Pos.eqb_spec q p) as [->|].
    + intros [= <-]. apply G, Hu.
    + intro E'. apply G, (D q k Hq E').
Qed.
Lemma entity_none h nm : kept0 h -> GetEntity (Some d) nm h = (Ret None, h).
Proof.
  intros (A & _). pose proof (Hno nm) as H. unfold GetEntity, deref, getDoc, LookupEntity, getDtd, hbind, hret, getc in *.
  destruct (hget h0 d) as [c|] eqn:Ed; [|discriminate H]. rewrite (A d (Hok _ _ Ed)), Ed.
  destruct (dat c) as [v e s [i|] [x|]| | | | | | | | | |]; try discriminate H; try reflexivity.
  - destruct (hget h0 i) as [ci|] eqn:Ei; [|discriminate H]. rewrite (A i (Hok _ _ Ei)), Ei. destruct (dat ci); try discriminate H. cbn [snd] in *. congruence.
  - destruct (hget h0 i) as [ci|] eqn:Ei; [|discriminate H]. rewrite (A i (Hok _ _ Ei)), Ei. destruct (dat ci); try discriminate H. cbn [snd] in *. congruence.
  - destruct (hget h0 x) as [ci|] eqn:Ei; [|discriminate H]. rewrite (A x (Hok _ _ Ei)), Ei. destruct (dat ci); try discriminate H. cbn [snd] in *. congruence.
Qed.
Lemma loose0_lt h p : kept0 h -> loose0 h p -> p < nxt h.
Proof. intros (_ & _ & C & _) (_ & c & E & _). exact (C _ _ E). Qed.
Lemma made o dt h : kept0 h -> alloc o dt h = (Ret (nxt h), with_new h {| lk := nolinks; owner := o; dat := dt |}) /\
  kept0 (with_new h {| lk := nolinks; owner := o; dat := dt |}) /\ loose0 (with_new h {| lk := nolinks; owner := o; dat := dt |}) (nxt h).
Proof.
  intro K. split; [reflexivity|]. split; [apply kept0_new; [exact K|reflexivity]|]. split; [apply K|]. eexists. rewrite hget_new, Pos.eqb_refl. repeat split.
Qed.
Lemma tail0_new h c rl : kept0 h -> tail0 h rl -> tail0 (with_new h c) rl.
Proof.
  intros (_ & _ & C & _). destruct rl as [[f|] [l|]]; cbn; auto. intros (A1 & A2 & A3 & k & E & B1 & B2). split; [exact A1|]. split.
  - rewrite hget_new. destruct (Pos.eqb f (nxt h)); [discriminate|exact A2].
  - split; [exact A3|]. exists k. rewrite hget_new. destruct (Pos.eqb_spec l (nxt h)) as [->|]; [apply C in E; lia|auto].
Qed.

Lemma link_ends h rl node : kept0 h -> tail0 h rl -> loose0 h node -> (forall l, snd rl = Some l -> l < node) ->
  ends (linkNode rl node) h (fun rl' h' => kept0 h' /\ tail0 h' rl').
Proof.
  intros K T (Ln & cn & En & N1 & N2) Hlt. unfold linkNode. destruct rl as [[f|] [l|]]; cbn [snd fst]; try contradiction T.
  2:{ apply ends_ret. split; [exact K|]. split; [exact Ln|]. split; [congruence|]. split; [exact Ln|]. exists cn. auto. }
  destruct T as (F1 & F2 & L1 & cl & El & M1 & M2). specialize (Hlt l eq_refl).
  assert (Bn : node < nxt h) by (destruct K as (_ & _ & C & _); exact (C _ _ En)).
  assert (S : does (addSibling l node) h (fun _ h' => kept0 h' /\ tail0 h' (Some f, Some node))).
  { unfold addSibling. apply does_bind. exists l, h. split. { unfold size. cbn [lastSibling]. rewrite (bind_getc _ _ _ _ El), M1. reflexivity. }
    apply does_bind, (does_upd _ _ _ _ _ El). set (h1 := hset h l _).
    assert (K1 : kept0 h1).
    { eapply kept0_set; [exact K|exact L1|exact El|]. cbn. split; [exact Hlt|]. split; [exact Bn|congruence]. }
    assert (E1 : hget h1 node = Some cn). { unfold h1. rewrite hget_set'. destruct (Pos.eqb_spec node l); [lia|exact En]. }
    apply does_bind, (does_upd _ _ _ _ _ E1). set (h2 := hset h1 node _).
    assert (K2 : kept0 h2). { eapply kept0_set; [exact K1|exact Ln|exact E1|]. cbn. rewrite N1. exact I. }
    assert (E2 : hget h2 node = Some (with_lk (lset_prev (Some l)) cn)). { unfold h2. rewrite hget_set', Pos.eqb_refl. reflexivity. }
    assert (E3 : hget h2 l = Some (with_lk (lset_next (Some node)) cl)).
    { unfold h2. rewrite hget_set'. destruct (Pos.eqb_spec l node); [lia|]. unfold h1. rewrite hget_set', Pos.eqb_refl. reflexivity. }
    apply does_bind, (does_getc _ _ _ _ E3). apply does_bind, (does_upd _ _ _ _ _ E2). cbn [with_lk lk lset_next l_par]. rewrite M2. apply does_ret.
    split.
    - eapply kept0_set; [exact K2|exact Ln|exact E2|]. cbn. rewrite N1. exact I.
    - split; [exact F1|]. split.
      + rewrite hget_set'. destruct (Pos.eqb f node); [discriminate|]. unfold h2. rewrite hget_set'. destruct (Pos.eqb f node); [discriminate|]. unfold h1. rewrite hget_set'. destruct (Pos.eqb f l); [discriminate|exact F2].
      + split; [exact Ln|]. eexists. rewrite hget_set', Pos.eqb_refl. split; [reflexivity|]. cbn. auto. }
  assert (S2 : does (hignore (AddSibling l node)) h (fun _ h' => kept0 h' /\ tail0 h' (Some f, Some node))).
  { assert (S3 : does (hignore (addSibling l node)) h (fun _ h' => kept0 h' /\ tail0 h' (Some f, Some node))).
    { destruct S as (u & h' & E & H). exists u, h'. unfold hignore. rewrite E. auto. }
    unfold does, hignore in S3 |- *. unfold AddSibling. rewrite (bind_getc _ _ _ _ El). destruct (dat cl) eqn:Dl; try exact S3.
    - exists tt, h. split; [reflexivity|]. split; [exact K|]. split; [exact F1|]. split; [exact F2|]. split; [exact Ln|]. exists cn. auto.
    - rewrite (bind_getc _ _ _ _ En). destruct (dat cn) eqn:Dn; try exact S3. unfold setData. rewrite (upd_run _ _ _ _ El). eexists _, _. split; [reflexivity|]. split.
      + eapply kept0_set; [exact K|exact L1|exact El|]. cbn. rewrite M1. exact I.
      + split; [exact F1|]. split.
        * rewrite hget_set'. destruct (Pos.eqb f l); [discriminate|exact F2].
        * split; [exact Ln|]. exists cn. rewrite hget_set'. destruct (Pos.eqb_spec node l); [lia|auto]. }
  destruct S2 as (u & h' & E & H). apply ends_bind. unfold ends at 1. rewrite E. apply ends_ret. exact H.
Qed.
Lemma tail0_lt h rl l : kept0 h -> tail0 h rl -> snd rl = Some l -> l < nxt h.
Proof. intros K T E. destruct rl as [[f|] [l'|]]; cbn in *; try discriminate E; try contradiction. injection E as ->. apply loose0_lt; [exact K|apply T]. Qed.
Lemma flush_ends h buf rl : kept0 h -> tail0 h rl -> ends (flushText (Some d) buf rl) h (fun rl' h' => kept0 h' /\ tail0 h' rl').
Proof.
  intros K T. unfold flushText. destruct buf; [apply ends_ret; auto|]. apply ends_bind. unfold ends at 1, CreateText.
  destruct (made (Some d) (DText (z :: buf)) h K) as (E & K1 & L1). rewrite E.
  apply link_ends; [exact K1|apply tail0_new; assumption|exact L1|]. intros l Hl. exact (tail0_lt _ _ _ K T Hl).
Qed.
Lemma reference_ends h nm rl : kept0 h -> tail0 h rl ->
  ends (CreateReference (Some d) nm) h (fun node h' => kept0 h' /\ tail0 h' rl /\ loose0 h' node /\ forall l, snd rl = Some l -> l < node).
Proof.
  intros K T. unfold CreateReference, CreateCharRef. destruct nm as [|z nm]; [exact I|]. apply ends_bind. unfold ends at 1.
  destruct (made (Some d) (DRef (refName (z :: nm))) h K) as (E & K1 & L1). rewrite E. apply ends_bind. unfold ends at 1. rewrite (entity_none _ _ K1).
  apply ends_bind, ends_ret, ends_ret. split; [exact K1|]. split; [apply tail0_new; assumption|]. split; [exact L1|]. intros l Hl. exact (tail0_lt _ _ _ K T Hl).
Qed.
Lemma list_ends n : forall rs buf rl h, (List.length rs < n)%nat -> kept0 h -> tail0 h rl ->
  ends (nodeList n (Some d) rs buf rl) h (fun r h' => kept0 h' /\ match r with Some f => n0 <= f /\ hget h' f <> None | None => True end).
Proof.
  induction n as [|n IH]; intros rs buf rl h Hn K T; [lia|]. cbn [nodeList]. destruct rs as [|r rs1].
  - apply ends_bind. eapply ends_weak; [exact (flush_ends h buf rl K T)|]. intros rl' h' (K' & T'). apply ends_ret. split; [exact K'|].
    destruct rl' as [[f|] [l|]]; cbn in *; tauto.
  - cbn [List.length] in Hn. destruct (negb (r =? 38)%Z); [apply IH; auto; lia|]. destruct rs1 as [|r1 rs2]; [exact I|]. destruct (r1 =? 35)%Z.
    + destruct rs2 as [|r2 rs3]; [exact I|].
      destruct (if (r2 =? 120)%Z then refDigits accHex 0 rs3 else refDigits accDec 0 (r2 :: rs3)) as [[v rest]|] eqn:E; [|exact I].
      apply IH; auto. cbn [List.length] in Hn. destruct (r2 =? 120)%Z; apply refDigits_short in E; cbn [List.length] in E; lia.
    + destruct (upToSemi (r1 :: rs2)) as [[nm rest]|] eqn:E; [|exact I]. apply upToSemi_short in E.
      apply ends_bind. unfold ends at 1. rewrite (entity_none _ _ K). apply ends_bind, ends_ret.
      apply ends_bind. eapply ends_weak; [exact (flush_ends h buf rl K T)|]. intros rl1 h1 (K1 & T1).
      apply ends_bind. eapply ends_weak; [exact (reference_ends h1 (utf8 nm) rl1 K1 T1)|]. intros node h2 (K2 & T2 & L2 & O2).
      apply ends_bind, ends_ret. apply ends_bind. eapply ends_weak; [exact (link_ends h2 rl1 node K2 T2 L2 O2)|]. intros rl2 h3 (K3 & T3).
      apply IH; auto. lia.
Qed.
Lemma present_set h p c q : hget h q <> None -> hget (hset h p c) q <> None.
Proof. intro H. rewrite hget_set'. destruct (Pos.eqb q p); [discriminate|exact H]. Qed.
Lemma parents_end p cl w n : forall o h, kept0 h -> hget h w <> None -> match o with Some f => n0 <= f /\ hget h f <> None /\ (Pos.to_nat (nxt h) < n + Pos.to_nat f)%nat | None => True end ->
  ends (setParents n p cl o) h (fun _ h' => kept0 h' /\ hget h' w <> None).
Proof.
  induction n as [|n IH]; intros [q|] h K W H; cbn [setParents]; try (apply ends_ret; auto).
  - destruct H as (H1 & H2 & H3). destruct (hget h q) as [c|] eqn:E; [|contradiction]. destruct K as (_ & _ & C & _). apply C in E. lia.
  - destruct H as (H1 & H2 & H3). destruct (hget h q) as [c|] eqn:E; [|contradiction].
    pose proof (proj2 (proj2 (proj2 K)) q c H1 E) as U.
    apply ends_bind, (ends_upd _ _ _ _ _ E). set (h1 := hset h q _). assert (K1 : kept0 h1) by (eapply kept0_set; eassumption).
    assert (W1 : hget h1 w <> None) by (apply present_set, W).
    assert (E1 : hget h1 q = Some (with_lk (lset_par (Some p)) c)) by (unfold h1; rewrite hget_set', Pos.eqb_refl; reflexivity).
    apply ends_bind, (ends_getc _ _ _ _ E1). cbn [with_lk lk lset_par l_next]. apply ends_bind.
    destruct (l_next (lk c)) as [q'|] eqn:Nx.
    + apply ends_ret. apply IH; [exact K1|exact W1|]. destruct U as (U1 & U2 & U3). split; [lia|]. split.
      * apply present_set, U3.
      * cbn. lia.
    + destruct cl.
      * apply (ends_upd _ _ _ _ _ E1). apply IH; [|apply present_set, W1|exact I]. eapply kept0_set; [exact K1|exact H1|exact E1|]. cbn. rewrite Nx. exact I.
      * apply ends_ret. apply IH; [exact K1|exact W1|exact I].
Qed.
(* the attributes that were there are there still *)
Lemma last_ends name : forall n p l, attrChain h0 n (Some p) = Ret l -> forall h n', kept0 h -> (n <= n')%nat ->
  ends (lastAttr n' name p) h (fun z h' => h' = h /\ hget h z <> None).
Proof.
  induction n as [|n IH]; intros p l; cbn [attrChain]; [discriminate|]. destruct (hget h0 p) as [c|] eqn:E; [|discriminate].
  destruct (dat c) eqn:D; try discriminate. destruct (attrChain h0 n (l_next (lk c))) as [r| | |] eqn:R; try discriminate. intros _ h n' K Hn.
  destruct n' as [|n']; [lia|]. cbn [lastAttr]. assert (E' : hget h p = Some c) by (rewrite (proj1 K p (Hok _ _ E)); exact E).
  apply ends_bind, (ends_getc _ _ _ _ E'). rewrite D. destruct (str_eqb _ _); [exact I|]. destruct (l_next (lk c)) as [q|].
  - eapply IH; [exact R|exact K|lia].
  - apply ends_ret. split; [reflexivity|congruence].
Qed.
End undeclared.

Lemma attribute_ends h0 d n name value : hok h0 -> (forall nm, GetEntity (Some d) nm h0 = (Ret None, h0)) -> (List.length (runes_of value) < n)%nat ->
  ends (CreateAttribute n (Some d) name value) h0 (fun a h' => kept0 h0 h' /\ hget h' a <> None).
Proof.
  intros Hok Hno Hn. unfold CreateAttribute. apply ends_bind. unfold ends at 1. destruct (made h0 d None (DAttr name false) h0 (kept0_start h0 Hok)) as (E & K1 & L1). rewrite E.
  set (a := nxt h0) in *. set (h1 := with_new h0 _) in *. destruct value as [|b value]; [split; [exact K1|]; unfold h1, a; rewrite hget_new, Pos.eqb_refl; discriminate|].
  assert (Hok1 : hok h1) by apply K1.
  assert (Hno1 : forall nm, GetEntity (Some d) nm h1 = (Ret None, h1)) by (intro nm; exact (entity_none h0 d Hok Hno h1 nm K1)).
  apply ends_bind. eapply ends_weak; [exact (list_ends h1 d Hok1 Hno1 n _ [] (None, None) h1 Hn (kept0_start h1 Hok1) I)|].
  intros k h2 (K2 & Hk).
  assert (Ea : hget h2 a = hget h1 a) by (apply K2; unfold h1, a; cbn; lia).
  assert (E1 : hget h1 a = Some {| lk := nolinks; owner := None; dat := DAttr name false |}) by (unfold h1, a; rewrite hget_new, Pos.eqb_refl; reflexivity).
  rewrite E1 in Ea.
  assert (K0 : kept0 h0 h2).
  { destruct K2 as (A & B & C & D), K1 as (A1 & B1 & C1 & D1). split; [|split; [|split]].
    - intros p Hp. rewrite A; [apply A1, Hp|]. lia.
    - lia.
    - exact C.
    - intros p c Hp Ep. destruct (Pos.eq_dec p a) as [->|Hne].
      + rewrite Ea in Ep. injection Ep as <-. exact I.
      + apply D; [|exact Ep]. unfold h1. cbn. unfold a in *. lia. }
  apply ends_bind, (ends_upd _ _ _ _ _ Ea). set (h3 := hset h2 a _).
  assert (K3 : kept0 h0 h3). { eapply kept0_set; [exact K0|unfold a; lia|exact Ea|exact I]. }
  apply ends_bind. eapply ends_weak.
  - apply (parents_end h0 a true a (size h3) k h3 K3). { unfold h3. rewrite hget_set', Pos.eqb_refl. discriminate. } destruct k as [f|]; [|exact I]. destruct Hk as (F1 & F2). split; [unfold h1 in F1; cbn in F1; lia|]. split.
    + unfold h3. rewrite hget_set'. destruct (Pos.eqb f a); [discriminate|exact F2].
    + unfold size. lia.
  - intros [] h4 K4. apply ends_ret. exact K4.
Qed.
Lemma set_ends h0 d n name value el ce l : hok h0 -> (forall nm, GetEntity (Some d) nm h0 = (Ret None, h0)) -> (List.length (runes_of value) < n)%nat ->
  hget h0 el = Some ce -> owner ce = Some d -> Attributes h0 el = Ret l ->
  ends (SetAttribute n el name value) h0 (fun _ _ => True).
Proof.
  intros Hok Hno Hn E Ow Ha. unfold SetAttribute. apply ends_bind, (ends_getc _ _ _ _ E). rewrite Ow. apply ends_bind.
  eapply ends_weak; [exact (attribute_ends h0 d n name value Hok Hno Hn)|]. intros a h1 (K & Pa).
  assert (E1 : hget h1 el = Some ce) by (rewrite (proj1 K el (Hok _ _ E)); exact E). apply ends_bind, (ends_getc _ _ _ _ E1).
  unfold Attributes in Ha. rewrite E in Ha. destruct (dat ce) as [|nm ns defs [p|]| | | | | | | | |]; try discriminate Ha.
  - apply ends_bind. assert (G : ends (lastAttr (size h1) name p) h1 (fun z h' => h' = h1 /\ hget h1 z <> None)).
    { eapply (last_ends h0 d Hok Hno); [exact Ha|exact K|]. destruct K as (_ & K & _). unfold size. lia. }
    unfold ends in G. unfold ends at 1. destruct (lastAttr (size h1) name p h1) as [[z|e| |] h2]; try exact G. destruct G as (-> & Pz).
    destruct (hget h1 z) as [cz|] eqn:Ez; [|contradiction]. apply ends_bind, (ends_upd _ _ _ _ _ Ez).
    destruct (hget (hset h1 z (with_lk (lset_next (Some a)) cz)) a) as [ca|] eqn:Ea; [|exfalso; revert Ea; apply present_set, Pa].
    apply (ends_upd _ _ _ _ _ Ea). exact I.
  - apply (ends_upd _ _ _ _ _ E1). exact I.
Qed.
Lemma made_at n d name value h a h' : CreateAttribute n d name value h = (Ret a, h') -> a = nxt h.
Proof.
  unfold CreateAttribute, hbind, alloc. destruct value as [|b v]; [intros [= <- _]; reflexivity|]. cbn beta iota.
  match goal with |- context [stringToNodeList ?x ?y ?z ?w] => destruct (stringToNodeList x y z w) as [[k| | |] h2]; try discriminate end.
  destruct (setFirst (nxt h) k h2) as [[[]| | |] h3]; try discriminate. destruct (setParents (size h3) (nxt h) true k h3) as [[[]| | |] h4]; try discriminate.
  intros [= <- _]. reflexivity.
Qed.
