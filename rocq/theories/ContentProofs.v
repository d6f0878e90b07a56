(* Content models: what the parser makes of the text of an expression, and what
   the serialiser writes. *)
From Verif Require Import Base Utf8 Utf8Proofs Escape XmlSpec Scan ScanProofs LexProofs Heap Dump DtdProofs DtdHistory.
From Verif Require Import Grammar TextProofs Complete Content.
Local Open Scope Z_scope.

Scheme cp_rec2 := Induction for cp Sort Prop with cps_rec2 := Induction for cps Sort Prop.
Combined Scheme cp_both from cp_rec2, cps_rec2.

Definition code (o : occ) : Z := match o with Once => ocOnce | Opt => ocOpt | Mult => ocMult | Plus => ocPlus end.
Lemma occ_of_code : forall o, occ_of (code o) = o. Proof. intros []; reflexivity. Qed.
Definition optional (o : occ) (e : econt) : econt :=
  match o with
  | Opt => set_occur (if ec_occur e =? ocPlus then ocMult else ocOpt) e
  | _ => e
  end.
Definition op (sep : Z) : Z := if sep =? 44 then ctSeq else ctOr.
Fixpoint model (c : cp) : econt :=
  match c with
  | Name p l o => EC ctElement (code o) (utf8 l) (utf8 p) None None
  | Group sep l o => optional o (models sep l)
  end
with models (sep : Z) (l : cps) : econt :=
  match l with
  | One c => model c
  | More c r => EC (op sep) ocOnce [] [] (Some (model c)) (Some (models sep r))
  end.

(* ---- languages ---- *)
Definition same (A B : language) : Prop := forall w, A w <-> B w.
Lemma star_mono : forall A B : language, (forall w, A w -> B w) -> forall w, star A w -> star B w.
Proof. intros A B H w S. induction S; [constructor|constructor; auto]. Qed.
Lemma star_same : forall A B, same A B -> same (star A) (star B).
Proof. intros A B H w. split; apply star_mono; intros u; apply H. Qed.
Lemma seq_same : forall A B C D, same A B -> same C D -> same (seq A C) (seq B D).
Proof. intros A B C D H K w. split; intros (u & v & X & Y & Z0); exists u, v; (split; [exact X|]); split; first [apply H|apply K]; assumption. Qed.
Lemma occurs_same : forall o A B, same A B -> same (occurs o A) (occurs o B).
Proof.
  intros [] A B H w; cbn [occurs]; [apply H|split; (intros [X|X]; [left; exact X|right; apply H, X])|apply star_same, H|].
  apply seq_same; [exact H|apply star_same, H].
Qed.
Lemma plus_opt : forall L, same (occurs Opt (occurs Plus L)) (occurs Mult L).
Proof.
  intros L w. cbn [occurs]. split.
  - intros [->|(u & v & -> & U & V)]; constructor; assumption.
  - intros S. destruct S as [|u v U V]; [left; reflexivity|right; exists u, v; auto].
Qed.
Lemma opt_opt : forall L, same (occurs Opt (occurs Opt L)) (occurs Opt L).
Proof. intros L w. cbn [occurs]. tauto. Qed.

Lemma mlang_op : forall sep oc a b, sep = 44 \/ sep = 124 -> same (mlang (EC (op sep) oc [] [] (Some a) (Some b)))
  (occurs (occ_of oc) (if sep =? 44 then seq (mlang a) (mlang b) else fun w => mlang a w \/ mlang b w)).
Proof. intros sep oc a b [->| ->] w; reflexivity. Qed.
Lemma prefixed_qname : forall p l, prefixed (utf8 p) (utf8 l) = utf8 (qname p l).
Proof.
  intros [|c p] l; [reflexivity|]. unfold qname, prefixed. rewrite !utf8_app.
  destruct (utf8 (c :: p)) eqn:X; [apply Complete.utf8_nil in X; discriminate|]. reflexivity.
Qed.
Lemma mlang_name : forall p l oc, same (mlang (EC ctElement oc (utf8 l) (utf8 p) None None)) (occurs (occ_of oc) (fun w => w = [utf8 (qname p l)])).
Proof. intros p l oc w. rewrite <- prefixed_qname. reflexivity. Qed.

Section Env.
Variable E : env.
Hypothesis OK : env_ok E.

Lemma model_lang_all : (forall c d, fits E d c -> same (mlang (model c)) (lang c)) /\
  (forall l sep d, sep = 44 \/ sep = 124 -> allfit E d l -> same (mlang (models sep l)) (langs sep l)).
Proof.
  apply cp_both.
  - intros p l o d _. cbn [model lang]. intros w. rewrite (mlang_name p l (code o) w), occ_of_code. reflexivity.
  - intros sep l IH o [|d] F; [destruct F|]. destruct F as (Hs & Ho & (p & n & q & Hf) & Hm & Fl).
    cbn [model lang]. specialize (IH sep d Hs Fl).
    destruct Ho as [-> | ->]; [exact IH|]. cbn [optional].
    destruct l as [c|c r].
    + cbn [first] in Hf. subst c. cbn [models langs model lang] in *. intros w.
      destruct q; cbn [code ec_occur]; try (exfalso; apply (Hm eq_refl p n eq_refl)).
      * apply (mlang_name p n ocOpt w).
      * rewrite (opt_opt _ w). apply (mlang_name p n ocOpt w).
      * rewrite (plus_opt _ w). apply (mlang_name p n ocMult w).
    + cbn [models ec_occur]. change (ocOnce =? ocPlus) with false. cbv iota. cbn [set_occur]. intros w.
      cbn [models] in IH. specialize (IH w) as IHw.
      rewrite (mlang_op sep ocOpt _ _ Hs w). change (occ_of ocOpt) with Opt.
      apply occurs_same. intros v. specialize (IH v). rewrite (mlang_op sep ocOnce _ _ Hs v) in IH. exact IH.
  - intros c IH sep d Hs F. exact (IH d F).
  - intros c IHc r IHr sep d Hs [Fc Fr]. cbn [models langs]. intros w. rewrite (mlang_op sep ocOnce _ _ Hs w).
    change (occ_of ocOnce) with Once. cbn [occurs].
    destruct (sep =? 44).
    + apply seq_same; [exact (IHc d Fc)|exact (IHr sep d Hs Fr)].
    + rewrite (IHc d Fc w), (IHr sep d Hs Fr w). reflexivity.
Qed.

(* ---- reading ---- *)
Definition closer (x : Z) : bool := blank x || (x =? 41) || (x =? 44) || (x =? 124).
Definition no_sign (x : Z) : Prop := x <> 63 /\ x <> 42 /\ x <> 43.
Lemma blank_ch : forall c, isBlankCh c = blank c.
Proof. intros c. unfold isBlankCh, blank. lia. Qed.
Lemma blanks_ch : forall b, blanks b -> Forall (fun c => isBlankCh c = true) b.
Proof. intros b. apply Forall_impl. intros c. rewrite blank_ch. auto. Qed.
Lemma skip_to : forall b x r, blanks b -> blank x = false -> skipBlanks (b ++ x :: r) = (Ret (negb (Nat.eqb (List.length b) 0)), x :: r).
Proof. intros b x r Hb Hx. apply skipBlanks_app; [apply blanks_ch, Hb|]. rewrite blank_ch. exact Hx. Qed.
Lemma closer_end : forall x, closer x = true -> nameRest E x = false /\ x <> 0 /\ no_sign x.
Proof.
  intros x H. unfold closer, blank in H. assert (0 <= x < 128) by lia. split; [|split; [lia|unfold no_sign; lia]].
  unfold nameRest. rewrite (ok_letter E OK), (ok_digit E OK) by lia. unfold isAZ, isD. lia.
Qed.
Lemma nameRest_sign : forall o x, In x (sign o) -> nameRest E x = false /\ x <> 0.
Proof.
  intros o x H. assert (X : x = 63 \/ x = 42 \/ x = 43) by (destruct o; cbn in H; intuition). assert (0 <= x < 128) by lia.
  split; [|lia]. unfold nameRest. rewrite (ok_letter E OK), (ok_digit E OK) by lia. unfold isAZ, isD. lia.
Qed.
Definition dname (p l : list Z) : Prop := qnamed E p l /\ Z.of_nat (List.length (qname p l)) <= 50000.
Lemma dname_nameOf : forall p l, dname p l -> isNameOf E (qname p l).
Proof.
  intros p l [[Hp Hl] Hn]. split; [|exact Hn]. apply (ncname_nameOf E OK) in Hl as Hl'. destruct Hl' as [Hl1 _].
  destruct p as [|c p]; [exact Hl1|]. destruct Hp as [Hp|Hp]; [discriminate|]. apply (ncname_nameOf E OK) in Hp. destruct Hp as [[Hc Hr] _].
  split; [exact Hc|]. change ((c :: p) ++ [58] ++ l) with (c :: p ++ 58 :: l). apply Forall_app. split; [exact Hr|].
  assert (S : forall x, startName E x = true -> nameRest E x = true).
  { intros x Sx. destruct (startName_not E x OK Sx) as (A & B & C & D & F). unfold startName, nameRest in *. destruct (isLetter E x), (isDigit E x); cbn [orb] in *; lia. }
  constructor; [apply S; unfold startName; destruct (isLetter E 58); reflexivity|]. destruct l as [|x l]; [destruct Hl1|]. destruct Hl1 as [X Y]. constructor; [apply S, X|exact Y].
Qed.
Lemma dname_split : forall p l, dname p l -> newElementContent (utf8 (qname p l)) ctElement = Ret (EC ctElement ocOnce (utf8 l) (utf8 p) None None).
Proof.
  intros p l [[Hp Hl] _]. unfold newElementContent. change (ctElement =? ctElement) with true. cbv iota.
  assert (Nl : ~ In 58 (utf8 l)) by (intro X; apply (utf8_In_ascii 58) in X; [|lia]; revert X; apply (ncname_no58 E OK), Hl).
  destruct p as [|c p].
  - cbn [qname]. destruct (utf8 l) as [|x y] eqn:Ex.
    { apply Complete.utf8_nil in Ex. subst. destruct Hl as [[] _]. }
    unfold prefix_local. destruct (split_colon (x :: y)) as [[a b]|] eqn:S; [|reflexivity]. apply split_colon_some in S as [S _].
    exfalso. apply Nl. rewrite S. apply in_app_iff. right. left. reflexivity.
  - destruct Hp as [Hp|Hp]; [discriminate|].
    assert (Np : ~ In 58 (utf8 (c :: p))) by (intro X; apply (utf8_In_ascii 58) in X; [|lia]; revert X; apply (ncname_no58 E OK), Hp).
    unfold qname. rewrite !utf8_app. change (utf8 [58]) with [58]. cbn [app].
    destruct (utf8 (c :: p)) as [|x y] eqn:Ex; [apply Complete.utf8_nil in Ex; discriminate|]. cbn [app].
    unfold prefix_local. destruct (split_colon (x :: y ++ 58 :: utf8 l)) as [[a b]|] eqn:S.
    + apply split_colon_some in S as [S N]. change (x :: y ++ 58 :: utf8 l) with ((x :: y) ++ 58 :: utf8 l) in S.
      apply app_first_inj in S as [-> ->]; [reflexivity|assumption|assumption].
    + apply split_colon_none in S. exfalso. apply S. right. apply in_app_iff. right. left. reflexivity.
Qed.
Lemma nameLeaf_ok : forall p l o x r, dname p l -> closer x = true ->
  nameLeaf E ((qname p l ++ sign o) ++ x :: r) = (Ret (model (Name p l o)), x :: r).
Proof.
  intros p l o x r D C. destruct (closer_end x C) as (C1 & C2 & C3 & C4 & C5). unfold nameLeaf. rewrite <- app_assoc.
  rewrite (pbind_eq _ _ _ _ _ (utf8 (qname p l)) (sign o ++ x :: r)).
  2:{ unfold pwrap. rewrite (parseName_app E _ _ OK (dname_nameOf p l D)); [reflexivity|].
      destruct (sign o) as [|y z] eqn:Es; [split; assumption|]. apply (nameRest_sign o). rewrite Es. left. reflexivity. }
  rewrite (pbind_eq _ _ _ _ _ (EC ctElement ocOnce (utf8 l) (utf8 p) None None) (sign o ++ x :: r)).
  2:{ unfold pwrap, plift. rewrite dname_split by exact D. reflexivity. }
  unfold occurrence. destruct o; cbn [sign app].
  - rewrite (pbind_eq _ _ _ _ _ x (x :: r)) by reflexivity.
    destruct (Z.eqb_spec x 63); [contradiction|]. destruct (Z.eqb_spec x 42); [contradiction|]. destruct (Z.eqb_spec x 43); [contradiction|]. reflexivity.
  - rewrite (pbind_eq _ _ _ _ _ 63 (63 :: x :: r)) by reflexivity. reflexivity.
  - rewrite (pbind_eq _ _ _ _ _ 42 (42 :: x :: r)) by reflexivity. reflexivity.
  - rewrite (pbind_eq _ _ _ _ _ 43 (43 :: x :: r)) by reflexivity. reflexivity.
Qed.

Lemma close_ok : forall o e after, o = Once \/ o = Opt -> no_sign (peek E after) ->
  closeGroup E (Some e) (41 :: sign o ++ after) = (Ret (Some (optional o e)), after).
Proof.
  intros o e after [-> | ->] (N1 & N2 & N3); unfold closeGroup; cbn [sign app].
  - rewrite (pbind_eq _ _ _ _ _ tt after) by reflexivity. rewrite (pbind_eq _ _ _ _ _ (peek E after) after) by reflexivity.
    destruct (Z.eqb_spec (peek E after) 63); [contradiction|]. destruct (Z.eqb_spec (peek E after) 42); [contradiction|].
    destruct (Z.eqb_spec (peek E after) 43); [contradiction|]. reflexivity.
  - rewrite (pbind_eq _ _ _ _ _ tt (63 :: after)) by reflexivity. rewrite (pbind_eq _ _ _ _ _ 63 (63 :: after)) by reflexivity. reflexivity.
Qed.

(* one member with the blanks behind it *)
Definition member (n : nat) (depth : Z) : P (option econt) := (
  c2 <- ppeek E ;;
  r <- (if c2 =? 40
        then padvance E 1 ;; skipBlanks ;; r <- pwrap (childrenDecl E n (depth + 1)) ;; skipBlanks ;; pret r
        else e <- nameLeaf E ;; pret (Some e)) ;;
  skipBlanks ;; pret r)%scan.
Lemma pbind_assoc : forall A B C (p : P A) (f : A -> P B) (g : B -> P C) l, pbind (pbind p f) g l = pbind p (fun a => pbind (f a) g) l.
Proof. intros A B C p f g l. unfold pbind. destruct (p l) as [[a|e| |] l']; reflexivity. Qed.
Lemma pbind_ext : forall A B (p : P A) (f g : A -> P B) l, (forall a m, f a m = g a m) -> pbind p f l = pbind p g l.
Proof. intros A B p f g l H. unfold pbind. destruct (p l) as [[a|e| |] l']; auto. Qed.
Lemma loop_close : forall n depth sep ch last r, childrenLoop E (Datatypes.S n) depth sep ch last (41 :: r) = closeGroup E (build ch last) (41 :: r).
Proof. reflexivity. Qed.
Lemma loop_step : forall n depth s0 sep ch last b r, sep = 44 \/ sep = 124 -> s0 = 0 \/ s0 = sep -> blanks b -> blank (hd 0 r) = false -> r <> [] ->
  childrenLoop E (Datatypes.S n) depth s0 ch last (sep :: b ++ r) =
  pbind (member n depth) (fun last' => childrenLoop E n depth sep (addOp (op sep) ch last) last') r.
Proof.
  intros n depth s0 sep ch last b r Hs H0 Hb Hr Nr. cbn [childrenLoop]. rewrite (pbind_eq _ _ _ _ _ false (sep :: b ++ r)) by reflexivity. cbv iota.
  rewrite (pbind_eq _ _ _ _ _ sep (sep :: b ++ r)) by reflexivity.
  replace (sep =? 41) with false by lia. replace (negb ((sep =? 44) || (sep =? 124))) with false by lia.
  replace (negb (s0 =? 0) && negb (s0 =? sep)) with false by lia.
  rewrite (pbind_eq _ _ _ _ _ tt (b ++ r)) by reflexivity. cbv zeta.
  destruct r as [|x r]; [congruence|]. rewrite (pbind_eq _ _ _ _ _ _ (x :: r) (skip_to b x r Hb Hr)).
  unfold member. rewrite pbind_assoc. rewrite (pbind_eq _ _ _ _ _ x (x :: r)) by reflexivity. rewrite (pbind_eq _ _ _ _ _ x (x :: r)) by reflexivity.
  rewrite pbind_assoc. apply pbind_ext. intros a m. rewrite pbind_assoc. apply pbind_ext. intros a' m'. reflexivity.
Qed.

Lemma dropW_idem : forall f (l : list Z), dropW f (dropW f l) = dropW f l.
Proof. intros f l. induction l as [|c l IH]; [reflexivity|]. cbn [dropW]. destruct (f c) eqn:X; [exact IH|]. cbn [dropW]. rewrite X. reflexivity. Qed.
Lemma decl_blank : forall n depth l, depth <= 128 -> childrenDecl E (Datatypes.S n) depth (dropW isBlankCh l) = childrenDecl E (Datatypes.S n) depth l.
Proof.
  intros n depth l H. cbn [childrenDecl]. destruct (Z.ltb_spec 128 depth); [lia|]. unfold pbind at 1. unfold pbind at 5. unfold skipBlanks at 1. unfold skipBlanks at 3.
  rewrite dropW_idem. reflexivity.
Qed.
Lemma name_start_blank : forall c, name_start E c = true -> blank c = false /\ c <> 40.
Proof.
  intros c Hc. split.
  - unfold name_start in Hc. assert (Hl : forall x, 0 <= x < 128 -> isLetter E x = isAZ x) by apply (ok_letter E OK).
    unfold blank. destruct (Z.eqb_spec c 32) as [->|]; [rewrite Hl in Hc by lia; discriminate Hc|].
    destruct (Z.eqb_spec c 9) as [->|]; [rewrite Hl in Hc by lia; discriminate Hc|].
    destruct (Z.eqb_spec c 10) as [->|]; [rewrite Hl in Hc by lia; discriminate Hc|].
    destruct (Z.eqb_spec c 13) as [->|]; [rewrite Hl in Hc by lia; discriminate Hc|]. reflexivity.
  - intros ->. unfold name_start in Hc. rewrite (ok_letter E OK) in Hc by lia. discriminate Hc.
Qed.
Lemma decl_name : forall n depth a p l o b x r, depth <= 128 -> dname p l -> blanks a -> blanks b -> closer x = true -> blank x = false ->
  childrenDecl E (Datatypes.S n) depth (a ++ (qname p l ++ sign o) ++ b ++ x :: r) =
  childrenLoop E n depth 0 (Leaf (Some (model (Name p l o)))) None (x :: r).
Proof.
  intros n depth a p l o b x r Hd D Ha Hb Cx Bx. cbn [childrenDecl]. destruct (Z.ltb_spec 128 depth); [lia|].
  destruct (qname_head E p l (proj1 D)) as (c & q & Eq & Hc).
  pose proof (name_start_blank c Hc) as Bc.
  destruct Bc as [Bc Nc].
  assert (Ec : exists y, (qname p l ++ sign o) ++ b ++ x :: r = c :: y) by (rewrite Eq; eexists; reflexivity).
  destruct Ec as [y Ey].
  rewrite (pbind_eq _ _ _ _ _ (negb (Nat.eqb (List.length a) 0)) ((qname p l ++ sign o) ++ b ++ x :: r)).
  2:{ rewrite Ey. apply skip_to; assumption. }
  rewrite (pbind_eq _ _ _ _ _ c ((qname p l ++ sign o) ++ b ++ x :: r)) by (rewrite Ey; reflexivity).
  destruct (Z.eqb_spec c 40); [contradiction|].
  assert (Cl : exists x' r', b ++ x :: r = x' :: r' /\ closer x' = true).
  { destruct b as [|x' b]; [exists x, r; auto|]. exists x', (b ++ x :: r). split; [reflexivity|]. inversion Hb as [|? ? Hx _]; subst. unfold closer. rewrite Hx. reflexivity. }
  destruct Cl as (x' & r' & El & Cl').
  rewrite pbind_assoc. rewrite (pbind_eq _ _ _ _ _ (model (Name p l o)) (b ++ x :: r)).
  2:{ rewrite El. apply nameLeaf_ok; assumption. }
  rewrite (pbind_eq _ _ _ _ _ (Leaf (Some (model (Name p l o)))) (b ++ x :: r)) by reflexivity.
  rewrite (pbind_eq _ _ _ _ _ _ (x :: r) (skip_to b x r Hb Bx)). reflexivity.
Qed.

Lemma after_closer : forall b x r, blanks b -> closer x = true -> no_sign (peek E (b ++ x :: r)).
Proof.
  intros [|y b] x r Hb Hx; [exact (proj2 (proj2 (closer_end x Hx)))|]. inversion Hb as [|? ? Hy _]; subst.
  refine (proj2 (proj2 (closer_end y _))). unfold closer. rewrite Hy. reflexivity.
Qed.
Lemma build_spine_snoc : forall ct sp x r, build_spine ct (sp ++ [x]) r = build_spine ct sp (Some (EC ct ocOnce [] [] x r)).
Proof. intros ct sp x r. induction sp as [|y sp IH]; [reflexivity|]. cbn [app build_spine]. rewrite IH. reflexivity. Qed.
Definition is_chain (ch : chain) (last : option econt) (sep : Z) (sp : list (option econt)) : Prop :=
  (exists x, ch = Leaf (Some x) /\ last = None /\ sp = [Some x]) \/
  (exists sp0 x, ch = Chain (op sep) sp0 /\ last = Some x /\ sp = sp0 ++ [Some x]).
Lemma is_chain_add : forall ch last sep sp, is_chain ch last sep sp -> addOp (op sep) ch last = Chain (op sep) sp.
Proof. intros ch last sep sp [(x & -> & -> & ->)|(sp0 & x & -> & -> & ->)]; reflexivity. Qed.
Lemma text_start : forall c t d, text c t -> fits E d c -> exists x r, t = x :: r /\ blank x = false.
Proof.
  intros c t d T F. inversion T as [p l o|sep l o t' T']; subst; [|exists 40, (t' ++ [41] ++ sign o); auto].
  destruct d; destruct F as [Q _]; destruct (qname_head E p l Q) as (x & r & Eq & Hx); exists x, (r ++ sign o); (split; [rewrite Eq; reflexivity|]);
    apply (name_start_blank x Hx).
Qed.
Lemma read_all :
  (forall c d depth n t b x r, fits E d c -> Z.of_nat d + depth <= 128 -> text c t -> blanks b -> closer x = true -> blank x = false ->
     (List.length t <= n)%nat -> member n depth (t ++ b ++ x :: r) = (Ret (Some (model c)), x :: r)) /\
  (forall l sep d depth n t o after, sep = 44 \/ sep = 124 -> allfit E d l -> Z.of_nat d + depth <= 128 -> texts sep l t ->
     o = Once \/ o = Opt -> no_sign (peek E after) -> (List.length t + 2 <= n)%nat ->
     (forall s0 ch last sp, s0 = 0 \/ s0 = sep -> is_chain ch last sep sp ->
        exists e, build_spine (op sep) sp (Some (models sep l)) = Some e /\
        childrenLoop E n depth s0 ch last (sep :: t ++ 41 :: sign o ++ after) = (Ret (Some (optional o e)), after)) /\
     ((exists p q k, first l = Name p q k) ->
        childrenDecl E n depth (t ++ 41 :: sign o ++ after) = (Ret (Some (optional o (models sep l))), after))).
Proof.
  apply cp_both.
  - intros p l o d depth n t b x r F Hd T Hb Cx Bx Hn. inversion T; subst. unfold member.
    assert (D : dname p l) by (destruct d; exact F).
    destruct (qname_head E p l (proj1 D)) as (c & q & Eq & Hc).
    rewrite (pbind_eq _ _ _ _ _ c ((qname p l ++ sign o) ++ b ++ x :: r)) by (rewrite Eq; reflexivity).
    replace (c =? 40) with false by (symmetry; apply Z.eqb_neq; apply (name_start_blank c Hc)).
    rewrite pbind_assoc.
    assert (Cl : exists x' r', b ++ x :: r = x' :: r' /\ closer x' = true).
    { destruct b as [|x' b]; [exists x, r; auto|]. exists x', (b ++ x :: r). split; [reflexivity|]. inversion Hb as [|? ? Hx _]; subst. unfold closer. rewrite Hx. reflexivity. }
    destruct Cl as (x' & r' & El & Cl').
    rewrite (pbind_eq _ _ _ _ _ (model (Name p l o)) (b ++ x :: r)).
    2:{ rewrite El. apply nameLeaf_ok; assumption. }
    rewrite (pbind_eq _ _ _ _ _ (Some (model (Name p l o))) (b ++ x :: r)) by reflexivity.
    rewrite (pbind_eq _ _ _ _ _ _ (x :: r) (skip_to b x r Hb Bx)). reflexivity.
  - intros sep l IH o d depth n t b x r F Hd T Hb Cx Bx Hn. destruct d as [|d]; [destruct F|].
    destruct F as (Hs & Ho & Hf & Hm & Fl). inversion T as [|? ? ? t' T']; subst. unfold member.
    rewrite (pbind_eq _ _ _ _ _ 40 (([40] ++ t' ++ [41] ++ sign o) ++ b ++ x :: r)) by reflexivity. change (40 =? 40) with true. cbv iota.
    rewrite pbind_assoc.
    replace (([40] ++ t' ++ [41] ++ sign o) ++ b ++ x :: r) with (40 :: t' ++ 41 :: sign o ++ b ++ x :: r) by (cbn [app]; rewrite <- !app_assoc; reflexivity).
    rewrite (pbind_eq _ _ _ _ _ tt (t' ++ 41 :: sign o ++ b ++ x :: r)) by reflexivity.
    rewrite pbind_assoc.
    rewrite (pbind_eq _ _ _ _ _ _ (dropW isBlankCh (t' ++ 41 :: sign o ++ b ++ x :: r))) by reflexivity.
    rewrite pbind_assoc. cbn [app List.length] in Hn. rewrite !app_length in Hn. cbn [List.length] in Hn.
    destruct n as [|n]; [lia|].
    rewrite (pbind_eq _ _ _ _ _ (Some (optional o (models sep l))) (b ++ x :: r)).
    2:{ unfold pwrap. rewrite decl_blank by lia.
        rewrite (proj2 (IH sep d (depth + 1) (Datatypes.S n) t' o (b ++ x :: r) Hs Fl ltac:(lia) T' Ho (after_closer b x r Hb Cx) ltac:(lia)) Hf). reflexivity. }
    rewrite pbind_assoc. rewrite (pbind_eq _ _ _ _ _ _ (x :: r) (skip_to b x r Hb Bx)).
    rewrite (pbind_eq _ _ _ _ _ (Some (optional o (models sep l))) (x :: r)) by reflexivity.
    rewrite (pbind_eq _ _ _ _ _ _ (x :: r) (skip_to [] x r (Forall_nil _) Bx)). reflexivity.
  - intros c IH sep d depth n t o after Hs F Hd T Ho Na Hn. inversion T as [? ? a tc b Ha Tc Hb|]; subst.
    rewrite !app_length in Hn. split.
    + intros s0 ch last sp H0 Hc. destruct n as [|n]; [lia|].
      rewrite <- !app_assoc. destruct (text_start c tc d Tc F) as (y & z & -> & By).
      rewrite loop_step by (cbn; auto; discriminate). cbn [List.length] in Hn.
      rewrite (pbind_eq _ _ _ _ _ (Some (model c)) (41 :: sign o ++ after)).
      2:{ apply (IH d depth); try assumption; try reflexivity. cbn [List.length]. lia. }
      rewrite (is_chain_add ch last sep sp Hc). destruct n as [|n]; [lia|]. rewrite loop_close. cbn [build].
      assert (X : exists e, build_spine (op sep) sp (Some (model c)) = Some e).
      { destruct Hc as [(u & _ & _ & ->)|(sp0 & u & _ & _ & ->)]; [eexists; reflexivity|]. destruct sp0; eexists; reflexivity. }
      destruct X as [e Ee]. exists e. split; [exact Ee|]. rewrite Ee. apply close_ok; assumption.
    + intros (p & q & k & Ef). cbn [first] in Ef. subst c. destruct n as [|n]; [lia|]. inversion Tc; subst.
      rewrite <- !app_assoc.
      replace (a ++ qname p q ++ sign k ++ b ++ 41 :: sign o ++ after) with (a ++ (qname p q ++ sign k) ++ b ++ 41 :: sign o ++ after) by (rewrite <- !app_assoc; reflexivity).
      rewrite decl_name; try assumption; try reflexivity; [|lia].
      destruct n as [|n]; [lia|]. rewrite loop_close. apply close_ok; assumption.
  - intros c IHc r IHr sep d depth n t o after Hs [F Fr] Hd T Ho Na Hn. inversion T as [|? ? ? a tc b tr Ha Tc Hb Tr]; subst.
    rewrite !app_length in Hn. cbn [List.length] in Hn.
    assert (Cs : closer sep = true /\ blank sep = false) by (destruct Hs as [->| ->]; split; reflexivity). split.
    + intros s0 ch last sp H0 Hc. destruct n as [|n]; [lia|].
      rewrite <- !app_assoc. destruct (text_start c tc d Tc F) as (y & z & -> & By).
      rewrite loop_step by (cbn; auto; discriminate). cbn [List.length] in Hn.
      rewrite (pbind_eq _ _ _ _ _ (Some (model c)) (sep :: tr ++ 41 :: sign o ++ after)).
      2:{ apply (IHc d depth); try assumption; try apply Cs. cbn [List.length]. lia. }
      rewrite (is_chain_add ch last sep sp Hc).
      destruct (proj1 (IHr sep d depth n tr o after Hs Fr Hd Tr Ho Na ltac:(lia)) sep (Chain (op sep) sp) (Some (model c)) (sp ++ [Some (model c)])) as (e & Ee & R).
      { right. reflexivity. }
      { right. exists sp, (model c). auto. }
      exists e. split; [rewrite build_spine_snoc in Ee; exact Ee|exact R].
    + intros (p & q & k & Ef). cbn [first] in Ef. subst c. destruct n as [|n]; [lia|]. inversion Tc; subst.
      rewrite <- !app_assoc.
      replace (a ++ qname p q ++ sign k ++ b ++ [sep] ++ tr ++ 41 :: sign o ++ after) with (a ++ (qname p q ++ sign k) ++ b ++ sep :: tr ++ 41 :: sign o ++ after) by (rewrite <- !app_assoc; reflexivity).
      rewrite decl_name; try assumption; try apply Cs; [|lia].
      assert (L : (1 <= List.length (qname p q))%nat).
      { destruct (qname_head E p q) as (u & v & Eu & _); [destruct d; apply F|]. rewrite Eu. cbn. lia. }
      rewrite app_length in Hn.
      destruct (proj1 (IHr sep d depth n tr o after Hs Fr Hd Tr Ho Na ltac:(lia)) 0 (Leaf (Some (model (Name p q k)))) None [Some (model (Name p q k))]) as (e & Ee & R).
      { left. reflexivity. }
      { left. exists (model (Name p q k)). auto. }
      cbn [build_spine] in Ee. injection Ee as <-. exact R.
Qed.

(* ---- declarations ---- *)
Definition pcdata (oc : Z) : econt := EC ctPCDATA oc [] [] None None.
Definition spec_type (s : spec) : Z :=
  match s with Empty => EmptyElementType | Any => AnyElementType | Text _ | TextOr _ _ => MixedElementType | Children _ => ElementElementType end.
Definition spec_model (s : spec) : option econt :=
  match s with
  | Empty | Any => None
  | Text st => Some (pcdata (if st then ocMult else ocOnce))
  | TextOr p l => Some (EC ctOr ocMult [] [] (Some (pcdata ocOnce)) (Some (EC ctElement ocOnce (utf8 l) (utf8 p) None None)))
  | Children c => Some (model c)
  end.
Lemma star_empty : forall w, star (fun w => w = []) w <-> w = [].
Proof. intros w. split; [|intros ->; constructor]. intros S. induction S as [|u v U _ IH]; [reflexivity|]. rewrite U, IH. reflexivity. Qed.
Lemma spec_stored : forall s, spec_fits E s -> same (stored_lang (spec_type s) (spec_model s)) (spec_lang s).
Proof.
  intros [| |st|p l|c] F w; try reflexivity.
  - destruct st; [|reflexivity]. exact (star_empty w).
  - change (star (fun w => w = [] \/ w = [prefixed (utf8 p) (utf8 l)]) w <-> star (fun w => w = [utf8 (qname p l)]) w). rewrite prefixed_qname. split.
    + intros S. induction S as [|u v [->|U] _ IH]; [constructor|exact IH|constructor; assumption].
    + apply star_mono. auto.
  - exact (proj1 (model_lang_all) c _ F w).
Qed.

Lemma content_children : forall sep l o t n c x r, fits E max_nesting (Group sep l o) -> text (Group sep l o) t -> blanks c -> closer x = true \/ x = 62 -> blank x = false ->
  (List.length t <= n)%nat ->
  elementContentDecl E n (t ++ c ++ x :: r) = (Ret (Some (model (Group sep l o)), ElementElementType), x :: r).
Proof.
  intros sep l o t n c x r F T Hc Cx Bx Hn. destruct F as (Hs & Ho & Hf & Hm & Fl). inversion T as [|? ? ? t' T']; subst. unfold elementContentDecl.
  replace (([40] ++ t' ++ [41] ++ sign o) ++ c ++ x :: r) with (40 :: t' ++ 41 :: sign o ++ c ++ x :: r) by (cbn [app]; rewrite <- !app_assoc; reflexivity).
  rewrite (pbind_eq _ _ _ _ _ 40 (40 :: t' ++ 41 :: sign o ++ c ++ x :: r)) by reflexivity. change (negb (40 =? 40)) with false. cbv iota.
  rewrite (pbind_eq _ _ _ _ _ tt (t' ++ 41 :: sign o ++ c ++ x :: r)) by reflexivity.
  rewrite (pbind_eq _ _ _ _ _ _ (dropW isBlankCh (t' ++ 41 :: sign o ++ c ++ x :: r))) by reflexivity.
  rewrite (pbind_eq _ _ _ _ _ false (dropW isBlankCh (t' ++ 41 :: sign o ++ c ++ x :: r))).
  2:{ unfold phas. f_equal. f_equal. destruct Hf as (p & q & k & Ef).
      assert (X : exists a y, t' = a ++ qname p q ++ y /\ blanks a).
      { destruct l as [cc|cc rr]; cbn [first] in Ef; subst cc.
        - inversion T' as [? ? a tc b Ha Tc Hb|]; subst. inversion Tc; subst. exists a, (sign k ++ b). rewrite <- !app_assoc. auto.
        - inversion T' as [|? ? ? a tc b tr Ha Tc Hb Tr]; subst. inversion Tc; subst. exists a, (sign k ++ b ++ [sep] ++ tr). rewrite <- !app_assoc. auto. }
      destruct X as (a & y & -> & Ha).
      assert (D : dname p q) by (destruct l; cbn [first] in Ef; subst; [exact Fl|exact (proj1 Fl)]).
      destruct (qname_head E p q (proj1 D)) as (u & v & Eq & Hu). rewrite Eq. rewrite <- !app_assoc.
      rewrite dropW_app; [|apply blanks_ch, Ha|]. 2:{ cbn [app]. rewrite blank_ch. apply (name_start_blank u Hu). }
      cbn [app]. change (s_ "#PCDATA") with (35 :: s_ "PCDATA"). cbn [has_prefix].
      replace (35 =? u) with false; [reflexivity|]. symmetry. apply Z.eqb_neq. intros <-. unfold name_start in Hu. rewrite (ok_letter E OK) in Hu by lia. discriminate Hu. }
  cbn [List.length app] in Hn. rewrite !app_length in Hn. cbn [List.length] in Hn. destruct n as [|n]; [lia|].
  assert (Na : no_sign (peek E (c ++ x :: r))).
  { destruct Cx as [Cx| ->]; [apply after_closer; assumption|]. destruct c as [|y c]; [cbn; unfold no_sign; lia|].
    inversion Hc as [|? ? Hy _]; subst. cbn [app peek hd]. unfold blank in Hy. unfold no_sign. lia. }
  rewrite (pbind_eq _ _ _ _ _ (Some (optional o (models sep l))) (c ++ x :: r)).
  2:{ unfold pwrap. rewrite decl_blank by lia.
      rewrite (proj2 (proj2 read_all l sep 128%nat 0 (Datatypes.S n) t' o (c ++ x :: r) Hs Fl ltac:(lia) T' Ho Na ltac:(lia)) Hf). reflexivity. }
  rewrite (pbind_eq _ _ _ _ _ _ (x :: r) (skip_to c x r Hc Bx)). reflexivity.
Qed.

Lemma content_text : forall (st : bool) b n c x r, blanks b -> blanks c -> x = 62 ->
  elementContentDecl E n (([40] ++ b ++ s_ "#PCDATA" ++ [41] ++ (if st then [42] else @nil Z)) ++ c ++ x :: r) =
  (Ret (Some (pcdata (if st then ocMult else ocOnce)), MixedElementType), x :: r).
Proof.
  intros st b n c x r Hb Hc ->. unfold elementContentDecl. rewrite <- !app_assoc. cbn [app].
  set (z := (if st then [42] else []) ++ c ++ 62 :: r).
  rewrite (pbind_eq _ _ _ _ _ 40 (40 :: b ++ s_ "#PCDATA" ++ 41 :: z)) by reflexivity. change (negb (40 =? 40)) with false. cbv iota.
  rewrite (pbind_eq _ _ _ _ _ tt (b ++ s_ "#PCDATA" ++ 41 :: z)) by reflexivity.
  rewrite (pbind_eq _ _ _ _ _ _ (s_ "#PCDATA" ++ 41 :: z) (skip_to b 35 (s_ "PCDATA" ++ 41 :: z) Hb eq_refl)).
  rewrite (pbind_eq _ _ _ _ _ true (s_ "#PCDATA" ++ 41 :: z)).
  2:{ unfold phas. rewrite hp_app. reflexivity. }
  rewrite (pbind_eq _ _ _ _ _ (Some (pcdata (if st then ocMult else ocOnce))) (c ++ 62 :: r)).
  2:{ unfold pwrap, mixedDecl. rewrite (pbind_eq _ _ _ _ _ true (41 :: z)) by apply pconsume_app. cbn [negb]. cbv zeta.
      rewrite (pbind_eq _ _ _ _ _ 41 (41 :: z)) by reflexivity. change (41 =? 41) with true. cbv iota.
      rewrite (pbind_eq _ _ _ _ _ tt z) by reflexivity. unfold z.
      destruct st; cbn [app].
      - rewrite (pbind_eq _ _ _ _ _ 42 (42 :: c ++ 62 :: r)) by reflexivity. reflexivity.
      - assert (X : peek E (c ++ 62 :: r) <> 42).
        { destruct c as [|y c]; [cbn; lia|]. inversion Hc as [|? ? Hy _]; subst. unfold blank in Hy. cbn. lia. }
        rewrite (pbind_eq _ _ _ _ _ (peek E (c ++ 62 :: r)) (c ++ 62 :: r)) by reflexivity.
        destruct (Z.eqb_spec (peek E (c ++ 62 :: r)) 42); [contradiction|]. reflexivity. }
  rewrite (pbind_eq _ _ _ _ _ _ (62 :: r) (skip_to c 62 r Hc eq_refl)). reflexivity.
Qed.
Lemma content_text_or : forall p l a b d n c x r, dname p l -> blanks a -> blanks b -> blanks d -> blanks c -> x = 62 -> (2 <= n)%nat ->
  elementContentDecl E n (([40] ++ a ++ s_ "#PCDATA|" ++ b ++ qname p l ++ d ++ [41; 42]) ++ c ++ x :: r) =
  (Ret (spec_model (TextOr p l), MixedElementType), x :: r).
Proof.
  intros p l a b d n c x r D Ha Hb Hd Hc -> Hn. unfold elementContentDecl. rewrite <- !app_assoc. cbn [app].
  change (s_ "#PCDATA|") with (s_ "#PCDATA" ++ [124]). rewrite <- app_assoc.
  set (z := 41 :: 42 :: c ++ 62 :: r).
  rewrite (pbind_eq _ _ _ _ _ 40 (40 :: a ++ s_ "#PCDATA" ++ [124] ++ b ++ qname p l ++ d ++ z)) by reflexivity. change (negb (40 =? 40)) with false. cbv iota.
  rewrite (pbind_eq _ _ _ _ _ tt (a ++ s_ "#PCDATA" ++ [124] ++ b ++ qname p l ++ d ++ z)) by reflexivity.
  rewrite (pbind_eq _ _ _ _ _ _ (s_ "#PCDATA" ++ [124] ++ b ++ qname p l ++ d ++ z) (skip_to a 35 (s_ "PCDATA" ++ [124] ++ b ++ qname p l ++ d ++ z) Ha eq_refl)).
  rewrite (pbind_eq _ _ _ _ _ true (s_ "#PCDATA" ++ [124] ++ b ++ qname p l ++ d ++ z)).
  2:{ unfold phas. rewrite hp_app. reflexivity. }
  rewrite (pbind_eq _ _ _ _ _ (spec_model (TextOr p l)) (c ++ 62 :: r)).
  2:{ unfold pwrap, mixedDecl. rewrite (pbind_eq _ _ _ _ _ true ([124] ++ b ++ qname p l ++ d ++ z)) by apply pconsume_app. cbn [negb]. cbv zeta.
      rewrite (pbind_eq _ _ _ _ _ 124 ([124] ++ b ++ qname p l ++ d ++ z)) by reflexivity. change (124 =? 41) with false. change ((124 =? 40) || (124 =? 124)) with true. cbv iota.
      rewrite (pbind_eq _ _ _ _ _ (Some (EC ctOr ocOnce [] [] (Some (pcdata ocOnce)) None), utf8 (qname p l)) z).
      2:{ destruct n as [|[|n]]; [lia|lia|]. cbn [mixedLoop].
          rewrite (pbind_eq _ _ _ _ _ 124 ([124] ++ b ++ qname p l ++ d ++ z)) by reflexivity. change (negb (124 =? 124)) with false. cbv iota.
          rewrite (pbind_eq _ _ _ _ _ tt (b ++ qname p l ++ d ++ z)) by reflexivity.
          destruct (qname_head E p l (proj1 D)) as (u & v & Eq & Hu).
          rewrite (pbind_eq _ _ _ _ _ (negb (Nat.eqb (List.length b) 0)) (qname p l ++ d ++ z)).
          2:{ rewrite Eq. apply skip_to; [exact Hb|]. apply (name_start_blank u Hu). }
          rewrite (pbind_eq _ _ _ _ _ (utf8 (qname p l)) (d ++ z)).
          2:{ unfold pwrap. rewrite (parseName_app E _ _ OK (dname_nameOf p l D)); [reflexivity|].
              assert (Y : exists y w, d ++ z = y :: w /\ closer y = true).
              { destruct d as [|y d]; [exists 41, (42 :: c ++ 62 :: r); auto|]. exists y, (d ++ z). split; [reflexivity|]. inversion Hd as [|? ? Hy _]; subst. unfold closer. rewrite Hy. reflexivity. }
              destruct Y as (y & w & -> & Cy). destruct (closer_end y Cy) as (Y1 & Y2 & _). split; assumption. }
          rewrite (pbind_eq _ _ _ _ _ _ z (skip_to d 41 (42 :: c ++ 62 :: r) Hd eq_refl)). reflexivity. }
      cbv beta iota.
      rewrite (pbind_eq _ _ _ _ _ true z) by reflexivity. cbv iota.
      rewrite (pbind_eq _ _ _ _ _ tt (c ++ 62 :: r)) by reflexivity.
      destruct (utf8 (qname p l)) as [|u v] eqn:Eu.
      { apply Complete.utf8_nil in Eu. destruct (qname_head E p l (proj1 D)) as (u & v & Eq & _). rewrite Eq in Eu. discriminate. }
      rewrite <- Eu. unfold pbind, pwrap, plift. rewrite (dname_split p l D). reflexivity. }
  rewrite (pbind_eq _ _ _ _ _ _ (62 :: r) (skip_to c 62 r Hc eq_refl)). reflexivity.
Qed.

Lemma spec_start : forall s t, spec_text s t -> exists x y, t = x :: y /\ blank x = false.
Proof.
  intros s t T. inversion T as [| | | |sep l o u Tu]; subst; try (eexists; eexists; split; reflexivity).
  inversion Tu; subst. eexists. eexists. split; reflexivity.
Qed.
Theorem scan_decl : forall p l s t, decl_text p l s t -> dname p l -> spec_fits E s ->
  forall n after, (List.length t <= n)%nat -> scanElementDecl E n (t ++ after) = (Ret (utf8 (qname p l), spec_type s, spec_model s), after).
Proof.
  intros p l s t T D F n after Hn. destruct T as [a b t c Na Ha Nb Hb T Hc]. rewrite !app_length in Hn. cbn [List.length] in Hn.
  unfold scanElementDecl. rewrite <- !app_assoc.
  rewrite (pbind_eq _ _ _ _ _ true (a ++ qname p l ++ b ++ t ++ c ++ [62] ++ after)) by apply pconsume_app. cbn [negb].
  destruct a as [|a0 a]; [congruence|]. inversion Ha as [|? ? Ha0 _]; subst.
  rewrite (pbind_eq _ _ _ _ _ a0 ((a0 :: a) ++ qname p l ++ b ++ t ++ c ++ [62] ++ after)) by reflexivity. rewrite blank_ch, Ha0. cbn [negb].
  destruct (qname_head E p l (proj1 D)) as (u & v & Eq & Hu).
  rewrite (pbind_eq _ _ _ _ _ (negb (Nat.eqb (List.length (a0 :: a)) 0)) (qname p l ++ b ++ t ++ c ++ [62] ++ after)).
  2:{ rewrite Eq. apply (skip_to (a0 :: a)); [exact Ha|]. apply (name_start_blank u Hu). }
  destruct b as [|b0 b]; [congruence|]. inversion Hb as [|? ? Hb0 _]; subst.
  rewrite (pbind_eq _ _ _ _ _ (utf8 (qname p l)) ((b0 :: b) ++ t ++ c ++ [62] ++ after)).
  2:{ unfold pwrap. rewrite (parseName_app E _ _ OK (dname_nameOf p l D)); [reflexivity|].
      assert (Y : closer b0 = true) by (unfold closer; rewrite Hb0; reflexivity). destruct (closer_end b0 Y) as (Y1 & Y2 & _). split; assumption. }
  rewrite (pbind_eq _ _ _ _ _ b0 ((b0 :: b) ++ t ++ c ++ [62] ++ after)) by reflexivity. rewrite blank_ch, Hb0. cbn [negb].
  rewrite (pbind_eq _ _ _ _ _ (negb (Nat.eqb (List.length (b0 :: b)) 0)) (t ++ c ++ [62] ++ after)).
  2:{ destruct (spec_start s t T) as (x & y & -> & Hx). apply (skip_to (b0 :: b)); assumption. }
  assert (R : exists c', blanks c' /\ (em <- pconsume (s_ "EMPTY") ;;
              if em then pret (None, EmptyElementType)
              else an <- pconsume (s_ "ANY") ;;
                   if an then pret (None, AnyElementType)
                   else c3 <- ppeek E ;;
                        if c3 =? 40 then pwrap (elementContentDecl E n)
                        else pret (None, UndefinedElementType))%scan (t ++ c ++ [62] ++ after) = (Ret (spec_model s, spec_type s), c' ++ [62] ++ after)).
  { assert (G : forall w, t = 40 :: w -> elementContentDecl E n (t ++ c ++ [62] ++ after) = (Ret (spec_model s, spec_type s), [62] ++ after) ->
      exists c', blanks c' /\ (em <- pconsume (s_ "EMPTY") ;;
              if em then pret (None, EmptyElementType)
              else an <- pconsume (s_ "ANY") ;;
                   if an then pret (None, AnyElementType)
                   else c3 <- ppeek E ;;
                        if c3 =? 40 then pwrap (elementContentDecl E n)
                        else pret (None, UndefinedElementType))%scan (t ++ c ++ [62] ++ after) = (Ret (spec_model s, spec_type s), c' ++ [62] ++ after)).
    { intros w Ew H. exists []. split; [constructor|]. rewrite Ew in *. unfold pwrap. cbn [app].
      rewrite (pbind_eq _ _ _ _ _ false (40 :: w ++ c ++ 62 :: after)) by reflexivity. cbv iota.
      rewrite (pbind_eq _ _ _ _ _ false (40 :: w ++ c ++ 62 :: after)) by reflexivity. cbv iota.
      rewrite (pbind_eq _ _ _ _ _ 40 (40 :: w ++ c ++ 62 :: after)) by reflexivity. change (40 =? 40) with true. cbv iota.
      cbn [app] in H. cbv beta. rewrite H. reflexivity. }
    inversion T as [| |st d Hd|p' l' x y z Hx Hy Hz|sep m o tu Tu]; subst.
    - exists c. split; [exact Hc|reflexivity].
    - exists c. split; [exact Hc|reflexivity].
    - eapply G; [reflexivity|]. apply content_text; auto.
    - eapply G; [reflexivity|]. apply content_text_or; auto. rewrite !app_length in Hn. cbn in Hn. lia.
    - inversion Tu as [|? ? ? w Tw]; subst. eapply G; [reflexivity|]. apply content_children; auto. lia. }
  destruct R as (c' & Hc' & R).
  rewrite (pbind_eq _ _ _ _ _ _ _ R).
  rewrite (pbind_eq _ _ _ _ _ _ (62 :: after) (skip_to c' 62 after Hc' eq_refl)).
  rewrite (pbind_eq _ _ _ _ _ 62 (62 :: after)) by reflexivity. change (negb (62 =? 62)) with false. cbv iota.
  rewrite (pbind_eq _ _ _ _ _ tt after) by reflexivity. reflexivity.
Qed.
End Env.
