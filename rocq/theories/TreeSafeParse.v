(* When the list of namespaces of an element has a nil entry, over which the tree
   builder panics. *)
From Verif Require Import Base Utf8 Utf8Proofs Encoding XmlSpec EscapeProofs Escape Scan ScanProofs Parser Effects LexProofs Heap TreeBuilder Mirror XmlGrammar
  Grammar TextProofs Complete DocComplete NoPanic Loose LooseLex LooseProofs LooseTree TreeSafe.
From Coq Require Import ZifyBool Permutation.

(* ---- specification ---- *)
(* of two occurrences of xmlns one is followed by a colon *)
Definition one_default (l : list Z) : Prop := forall a b c, l = a ++ s_ "xmlns" ++ b ++ s_ "xmlns" ++ c -> hd 0 b = 58 \/ hd 0 c = 58.
(* xmlns: is followed by a name *)
Definition prefixes_named (E : env) (l : list Z) : Prop := forall a b, l = a ++ s_ "xmlns:" ++ b -> name_part E (hd 0 b) = true.

(* ---- attributes ---- *)
Lemma lref_facts t x s : lref all t x s -> valid_rune x = true /\ (List.length s <= List.length t)%nat.
Proof.
  intros [t0 x0 s0 R _|t0 v s0 R L _|t0 v s0 R L _|n x0 s0 R _ _].
  - split; [eapply xml_valid, reference_char, R|]. destruct (reference_legal _ _ _ R) as (p & -> & _). rewrite app_length. apply Nat.le_add_l.
  - split; [apply legal_valid, L|]. apply number_shrinks in R. cbn [List.length]. lia.
  - split; [apply legal_valid, L|]. apply number_shrinks in R. cbn [List.length]. lia.
  - split; [eapply xml_valid, reference_char, R|]. rewrite app_length. cbn [List.length]. lia.
Qed.
Lemma number_suffix base val : forall s seen acc n r, number base val seen acc s = Some (n, r) -> exists y, s = y ++ r.
Proof.
  induction s as [|c s IH]; intros seen acc n r N; [discriminate|]. cbn [number] in N. destruct (c =? 59).
  - destruct seen; [|discriminate]. injection N as _ <-. exists [c]. reflexivity.
  - destruct (val c) as [d|]; [|discriminate]. destruct (IH _ _ _ _ N) as (y & ->). exists (c :: y). reflexivity.
Qed.
Lemma encode_len x : (List.length (encode_rune x) <= 4)%nat.
Proof. unfold encode_rune, enc_raw. repeat match goal with |- context [if ?b then _ else _] => destruct b end; cbn [List.length]; lia. Qed.
Lemma utf8_one x : utf8 [x] = encode_rune x. Proof. unfold utf8. cbn [flat_map]. apply app_nil_r. Qed.
Lemma lattlit_facts q t v : lattlit all q t v ->
  (exists rs, Forall (fun r => valid_rune r = true) rs /\ v = utf8 (amp_escaped rs)) /\ (List.length v <= 5 * List.length t)%nat.
Proof.
  assert (One : forall x rs v, valid_rune x = true -> x <> 38 -> Forall (fun r => valid_rune r = true) rs -> v = utf8 (amp_escaped rs) ->
    exists rs0, Forall (fun r => valid_rune r = true) rs0 /\ utf8 [x] ++ v = utf8 (amp_escaped rs0)).
  { intros x rs v0 V N F ->. exists (x :: rs). split; [constructor; assumption|]. rewrite amp_cons.
    replace (x =? 38) with false by lia. unfold utf8. rewrite flat_map_app. reflexivity. }
  induction 1 as [|c t v0 L B Q1 Q2 Q3 A [(rs & V & Ev) Ln]|c t v0 B C A [(rs & V & Ev) Ln]|t x t' v0 R X1 A [(rs & V & Ev) Ln]|t t' v0 R A [(rs & V & Ev) Ln]].
  - split; [exists []; split; [constructor|reflexivity]|cbn; lia].
  - split; [eapply One; [apply legal_valid, L|exact Q3|exact V|exact Ev]|]. rewrite app_length, utf8_one. pose proof (encode_len c). cbn [List.length]. lia.
  - split; [apply (One 32 rs); [reflexivity|lia|exact V|exact Ev]|]. cbn [List.length]. lia.
  - destruct (lref_facts _ _ _ R) as [Vx Lx]. split; [eapply One; [exact Vx|exact X1|exact V|exact Ev]|].
    rewrite app_length, utf8_one. pose proof (encode_len x). cbn [List.length]. lia.
  - destruct (lref_facts _ _ _ R) as [_ Lx]. split.
    + exists (38 :: rs). split; [constructor; [reflexivity|exact V]|]. rewrite amp_cons. cbn [Z.eqb Pos.eqb].
      rewrite Ev. unfold utf8. rewrite flat_map_app. reflexivity.
    + rewrite app_length. change (List.length (s_ "&#38;")) with 5%nat. cbn [List.length]. lia.
Qed.
Lemma lattr_facts E w p l v : lattr all E w p l v ->
  (exists rs, Forall (fun r => valid_rune r = true) rs /\ v = utf8 (amp_escaped rs)) /\ (List.length v <= 5 * List.length w)%nat.
Proof.
  intros [n p0 l0 e1 c e2 w0 v0 _ _ _ _ [_|q lit v1 _ Ll]].
  - split; [exists []; split; [constructor|reflexivity]|cbn; lia].
  - destruct (lattlit_facts _ _ _ Ll) as [A B]. split; [exact A|]. rewrite !app_length. lia.
Qed.
Lemma latts_facts E tab t a d tab' : latts all E tab t a d tab' ->
  (exists a', mirrors_atts a a') /\ forall x y w, In (AAttr x y w) a -> (List.length w <= 5 * List.length t)%nat.
Proof.
  assert (St : forall w0 p0 l0 v0 b s (a : list attr) x1 y1, lattr all E w0 p0 l0 v0 -> (exists a', mirrors_atts a a') ->
    (forall x y w, In (AAttr x y w) a -> (List.length w <= 5 * List.length s)%nat) ->
    (exists a', mirrors_atts (AAttr x1 y1 v0 :: a) a') /\
    forall x y w, In (AAttr x y w) (AAttr x1 y1 v0 :: a) -> (List.length w <= 5 * List.length (b ++ w0 ++ s))%nat).
  { intros w0 p0 l0 v0 b s a0 x1 y1 A (a' & M) L. destruct (lattr_facts _ _ _ _ _ A) as [(rs & V & Ev) Ln]. split.
    - eexists. rewrite Ev. constructor; [exact V|exact M].
    - intros x y w [X|X]; rewrite !app_length; [injection X as _ _ <-; lia|]. specialize (L _ _ _ X). lia. }
  induction 1 as [tab b B|tab b w p l v s a d tab' B A N1 N2 L IH|tab b w l v s a d tab' B A N1 N2 N3 N4 U Lk Sp L IH|tab b w s a d tab' B A O Sp L IH
    |tab b w v B A O|tab b w v c s a d tab' B A O O2 Bc L IH].
  - split; [exists []; constructor|intros x y w []].
  - destruct IH as [I1 I2]. eapply St; eassumption.
  - destruct IH as [I1 I2]. split; [exact I1|]. intros x y w0 X. specialize (I2 _ _ _ X). rewrite !app_length. lia.
  - destruct IH as [I1 I2]. split; [exact I1|]. intros x y w0 X. specialize (I2 _ _ _ X). rewrite !app_length. lia.
  - split; [exists []; constructor|intros x y w0 []].
  - destruct IH as [I1 I2]. eapply St; eassumption.
Qed.

(* ---- namespaces ---- *)
Definition no_default (l : list Z) : Prop := forall a b, l = a ++ s_ "xmlns" ++ b -> hd 0 b = 58.
Definition nsok (E : env) (tab : list (str * str)) (l : list Z) : Prop :=
  (forall p u, In (p, u) tab -> p <> [] -> u <> []) /\ prefixes_named E l /\
  (((forall u, ~ In ([], u) tab) /\ one_default l) \/ no_default l).

Lemma one_suffix l l' : one_default l -> suffix l' l -> one_default l'.
Proof. intros H (p & ->) a b c ->. apply (H (p ++ a)). rewrite <- app_assoc. reflexivity. Qed.
Lemma no_suffix l l' : no_default l -> suffix l' l -> no_default l'.
Proof. intros H (p & ->) a b ->. apply (H (p ++ a)). rewrite <- app_assoc. reflexivity. Qed.
Lemma named_suffix E l l' : prefixes_named E l -> suffix l' l -> prefixes_named E l'.
Proof. intros H (p & ->) a b ->. apply (H (p ++ a)). rewrite <- app_assoc. reflexivity. Qed.
Lemma nsok_suffix E tab l l' : nsok E tab l -> suffix l' l -> nsok E tab l'.
Proof.
  intros (A & B & C) Sx. split; [exact A|]. split; [eapply named_suffix; eassumption|].
  destruct C as [[C1 C2]|C]; [left; split; [exact C1|eapply one_suffix; eassumption]|right; eapply no_suffix; eassumption].
Qed.
Lemma one_then l r x : one_default l -> l = s_ "xmlns" ++ x -> hd 0 x <> 58 -> suffix r x -> no_default r.
Proof.
  intros H -> N (y & ->) a b ->. destruct (H [] (y ++ a) b) as [X|X]; [rewrite <- !app_assoc; reflexivity| |exact X].
  exfalso. destruct (y ++ a) as [|z t] eqn:Q; [discriminate|]. apply N. rewrite app_assoc, Q. exact X.
Qed.
Lemma suffix_app (a b : list Z) : suffix b (a ++ b). Proof. exists a. reflexivity. Qed.

Section NS.
Variable E : env.
Hypothesis OK : env_ok E.
Hypothesis NC : forall c, isLetter E c || isDigit E c = true -> xml_char c = true.

Lemma bound_none tab p : (forall u, ~ In (p, u) tab) -> bound tab p = None.
Proof.
  induction tab as [|[q u] tab IH]; intro N; [reflexivity|]. cbn [bound]. destruct (str_eqb_spec q p) as [->|Ne].
  - exfalso. apply (N u). left. reflexivity.
  - apply IH. intros u' X. apply (N u'). right. exact X.
Qed.
Lemma bound_in tab p u : bound tab p = Some u -> In (p, u) tab.
Proof.
  induction tab as [|[q w] tab IH]; intro N; [discriminate|]. cbn [bound] in N. destruct (str_eqb_spec q p) as [->|Ne]; [injection N as ->; left; reflexivity|right; auto].
Qed.
(* what follows the xmlns of a declaration, [] or a prefix *)
Lemma blank_facts c : blank c = true -> c <> 58 /\ name_part E c = false.
Proof.
  intro B. assert (Hc : 0 <= c < 128) by (unfold blank in B; lia).
  unfold name_part. rewrite (ok_letter E OK), (ok_digit E OK) by lia. unfold isAZ, isD. unfold blank in B. split; lia.
Qed.
Lemma nul_zero z : nul all z -> z = [] \/ z = [0]. Proof. intros [->|[-> _]]; auto. Qed.
Lemma xmlns_cases w p l v r : lattr all E w p l v -> (p = [] /\ l = s_ "xmlns") \/ p = s_ "xmlns" ->
  exists x, w ++ r = s_ "xmlns" ++ x /\ suffix r x /\ (hd 0 x <> 58 \/ (l <> [] /\ p <> []) \/ exists y, x = 58 :: y /\ name_part E (hd 0 y) = false).
Proof.
  intros A H. destruct A as [n p0 l0 e1 c e2 w0 v0 Q B1 C B2 V].
  assert (Hc : forall y, (e1 = [] -> c <> 58 \/ p0 <> []) -> (p0 = [] -> hd 0 ((e1 ++ [c] ++ e2 ++ w0) ++ y) <> 58) ).
  { intros y Hn P0. destruct e1 as [|z e1]; cbn; [destruct Hn; congruence|]. inversion B1; subst. apply blank_facts. assumption. }
  assert (H0 : forall x : list Z, hd 0 (0 :: x) <> 58) by (intros x; cbn; lia).
  destruct Q as [n z N Z|n z m y N Z M Y|n z N Z O].
  - destruct H as [[_ ->]|X]; [|discriminate]. exists ((z ++ e1 ++ [c] ++ e2 ++ w0) ++ r). split; [rewrite <- !app_assoc; reflexivity|].
    split; [apply suffix_app|]. left. destruct (nul_zero _ Z) as [->| ->]; [|exact (H0 _)]. cbn [app]. apply (Hc r); [|reflexivity].
    intros E1. left. destruct C as [->|(_ & _ & C)]; [discriminate|]. destruct (C E1) as [C1 _]. apply C1. reflexivity.
  - destruct H as [[X _]| ->]; [subst n; destruct N as [[] _]|]. exists (((z ++ [58] ++ m ++ y) ++ e1 ++ [c] ++ e2 ++ w0) ++ r).
    split; [rewrite <- !app_assoc; reflexivity|]. split; [apply suffix_app|]. right. left. split; [|discriminate]. intros ->. destruct M as [[] _].
  - destruct H as [[X _]| ->]; [subst n; destruct N as [[] _]|]. exists (((z ++ [58]) ++ e1 ++ [c] ++ e2 ++ w0) ++ r).
    split; [rewrite <- !app_assoc; reflexivity|]. split; [apply suffix_app|].
    destruct (nul_zero _ Z) as [->| ->]; [|left; exact (H0 _)]. right. right. exists ((e1 ++ [c] ++ e2 ++ w0) ++ r). split; [reflexivity|].
    destruct e1 as [|z e1]; cbn.
    + destruct C as [->|(_ & _ & C)]; [|apply C; reflexivity]. unfold name_part. rewrite (ok_letter E OK), (ok_digit E OK) by lia. reflexivity.
    + inversion B1; subst. apply blank_facts. assumption.
Qed.
(* a declaration adds a binding *)
Lemma nsok_decl tab w p l v0 v r q : lattr all E w p l v0 -> (p = [] /\ l = s_ "xmlns" /\ q = []) \/ (p = s_ "xmlns" /\ q = utf8 l /\ v <> [] /\ lookup tab q = []) ->
  nsok E tab (w ++ r) -> push tab q v = (q, v) :: tab /\ nsok E (push tab q v) r.
Proof.
  intros A H (N1 & N2 & N3).
  destruct (xmlns_cases w p l v0 r A ltac:(tauto)) as (x & Ex & Sx & Cx). rewrite Ex in *.
  assert (Sr : suffix r (s_ "xmlns" ++ x)) by (eapply suffix_trans; [exact Sx|apply suffix_app]).
  assert (Nz : hd 0 x <> 58 -> (forall u, ~ In ([], u) tab) /\ no_default r).
  { intro Hx. destruct N3 as [[N3 O]|N3]; [|exfalso; apply Hx, (N3 []); reflexivity]. split; [exact N3|]. eapply one_then; [exact O|reflexivity|exact Hx|exact Sx]. }
  assert (Add : bound tab q = None -> (q = [] -> no_default r) -> (q <> [] -> v <> []) -> push tab q v = (q, v) :: tab /\ nsok E (push tab q v) r).
  { intros Bn Hq Hv. unfold push. rewrite Bn. split; [reflexivity|]. split; [|split].
    - intros p1 u1 [X|X] Np; [injection X as <- <-; apply Hv, Np|eapply N1; eassumption].
    - eapply named_suffix; eassumption.
    - destruct q as [|z q]; [right; apply Hq; reflexivity|]. destruct N3 as [[N3 O]|N3]; [left|right; eapply no_suffix; eassumption].
      split; [|eapply one_suffix; eassumption]. intros u [X|X]; [discriminate|exact (N3 u X)]. }
  destruct Cx as [Hx|[[Hl Hp]|(y & Ey & Hy)]].
  - destruct (Nz Hx) as [T Nr]. destruct H as [(_ & _ & ->)|(_ & -> & Hv & Lk)].
    + apply Add; [apply bound_none, T|auto|congruence].
    + apply Add; [|auto|auto]. unfold lookup in Lk. destruct (bound tab (utf8 l)) as [u|] eqn:Bd; [|reflexivity]. exfalso. subst u.
      apply bound_in in Bd. destruct (utf8 l) as [|z u] eqn:Ul; [exact (T _ Bd)|]. eapply N1; [exact Bd|discriminate|reflexivity].
  - destruct H as [(-> & _ & _)|(_ & -> & Hv & Lk)]; [contradiction|].
    assert (Ul : utf8 l <> []) by (destruct l as [|z l]; [contradiction|]; cbn [utf8 flat_map]; pose proof (encode_nonempty z); destruct (encode_rune z); [contradiction|discriminate]).
    apply Add; [|intro X; contradiction|auto]. unfold lookup in Lk. destruct (bound tab (utf8 l)) as [u|] eqn:Bd; [|reflexivity]. exfalso. subst u.
    apply bound_in in Bd. eapply N1; [exact Bd|exact Ul|reflexivity].
  - exfalso. subst x. assert (X : name_part E (hd 0 y) = true) by (apply (N2 [] y); reflexivity). congruence.
Qed.
Lemma latts_nsok tab t a d tab' : latts all E tab t a d tab' -> forall r, nsok E tab (t ++ r) ->
  List.length tab' = (List.length tab + List.length d)%nat /\ nsok E tab' r.
Proof.
  induction 1 as [tab b B|tab b w p l v s a d tab' B A N1 N2 L IH|tab b w l v s a d tab' B A N1 N2 N3 N4 U Lk Sp L IH|tab b w s a d tab' B A O Sp L IH
    |tab b w v B A O|tab b w v c s a d tab' B A O O2 Bc L IH]; intros r N; rewrite <- ?app_assoc in N.
  - split; [cbn; lia|eapply nsok_suffix; [exact N|apply suffix_app]].
  - apply IH. eapply nsok_suffix; [exact N|]. eapply suffix_trans; apply suffix_app.
  - assert (N' : nsok E tab (w ++ s ++ r)) by (eapply nsok_suffix; [exact N|apply suffix_app]).
    destruct (nsok_decl tab w _ l v v (s ++ r) (utf8 l) A) as [P Q]; [right; auto|exact N'|]. destruct (IH _ Q) as [I1 I2]. split; [|exact I2].
    rewrite I1, P. cbn [List.length]. lia.
  - apply IH. eapply nsok_suffix; [exact N|]. eapply suffix_trans; apply suffix_app.
  - assert (N' : nsok E tab (w ++ r)) by (eapply nsok_suffix; [exact N|apply suffix_app]).
    destruct (nsok_decl tab w _ _ v v r [] A) as [P Q]; [left; auto|exact N'|]. split; [|exact Q]. rewrite P. cbn [List.length]. lia.
  - assert (N' : nsok E tab (w ++ (c :: s) ++ r)) by (eapply nsok_suffix; [exact N|apply suffix_app]).
    destruct (nsok_decl tab w _ _ v v ((c :: s) ++ r) [] A) as [P Q]; [left; auto|exact N'|]. destruct (IH _ Q) as [I1 I2]. split; [|exact I2].
    rewrite I1, P. cbn [List.length]. lia.
Qed.
Lemma reported_full k tab : (k <= List.length tab)%nat -> ~ In None (reported k tab).
Proof.
  intros L X. unfold reported in X. apply in_app_or in X as [X|X].
  - apply in_map_iff in X as (y & Y & _). discriminate.
  - replace (k - List.length tab)%nat with 0%nat in X by lia. destruct X.
Qed.
End NS.

(* ---- the result of a run ---- *)
(* the panic comes from the tree builder, over a nil entry *)
Definition nil_reported (s : pst tb) : Prop :=
  exists l p u ns a t, tr s = (EStartElement l p u ns a, HPanic) :: t /\ In None ns.
(* o tells whether the declarations of namespaces are watched, which rules that out *)
Definition ok_run (o : bool) {A} (Q : A -> pst tb -> Prop) (r : outcome gerr A * pst tb) : Prop :=
  (fst r = Pan -> o = false /\ nil_reported (snd r)) /\ (forall a, fst r = Ret a -> Q a (snd r)).
Lemma ok_any o A (Q : A -> pst tb -> Prop) r : fst r <> Pan -> (forall a, fst r = Ret a -> Q a (snd r)) -> ok_run o Q r.
Proof. intros N K. split; [congruence|exact K]. Qed.
Lemma tag_end_suffix l l' : tag_end l l' -> suffix l' l.
Proof. intros [->|[-> _]]; [exists [62]; reflexivity|apply suffix_refl]. Qed.
