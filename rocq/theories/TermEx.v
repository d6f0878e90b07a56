(* A test for [mild] and [subset_ok], and the document of the example of
   PropertiesTerm.v. *)
From Verif Require Import Base Utf8 Utf8Proofs Encoding XmlSpec EscapeProofs Scan ScanProofs Parser LexProofs Grammar Sample Counter ParserEx PropertiesParser DoctypeEx LooseEx DtdSafeEx Term TermDtd TermRuns TermDoc.
From Coq Require Import ZifyBool.
Local Open Scope Z_scope.

(* ---- the pieces of a subset ---- *)
Fixpoint after (p l : list Z) : option (list Z) :=
  if has_prefix p l then Some (skipn (List.length p) l) else match l with [] => None | _ :: t => after p t end.
Fixpoint scan (st : option Z) (l : list Z) : option (list Z) :=
  match l with
  | [] => None
  | c :: t => match st with
              | Some q => scan (if c =? q then None else st) t
              | None => if c =? 62 then Some t else if quoteb c then scan (Some c) t else scan None t
              end
  end.
Fixpoint paren (st : option Z) (l : list Z) : bool :=
  match l with
  | [] => false
  | c :: t => match st with
              | Some q => paren (if c =? q then None else st) t
              | None => if c =? 40 then true else if c =? 62 then false else if quoteb c then paren (Some c) t else paren None t
              end
  end.
(* what is left after one item *)
Definition step (l : list Z) : option (list Z) :=
  match l with
  | [] => None
  | c :: t => if blank c then Some t else if c =? 37 then after [59] t else
      if has_prefix [60; 63] l then after [63; 62] (skipn 2 l)
      else if has_prefix [60; 33; 45; 45] l then after [45; 45; 62] (skipn 4 l) else if has_prefix [60; 33] l then scan None (skipn 3 l) else None
  end.
Definition unknownb (l : list Z) : bool :=
  match l with
  | [] => false
  | c :: _ => negb (blank c) && negb (c =? 37) && negb (c =? 93) &&
      forallb (fun k => negb (has_prefix k l)) [s_ "<?"; s_ "<!-"; s_ "<!EL"; s_ "<!EN"; s_ "<!ATTLIST"]
  end.
(* every place reached from here is known *)
Fixpoint walk (n : nat) (l : list Z) : bool :=
  negb (unknownb l) && match step l with
                       | None => true
                       | Some r => match n with O => false | Datatypes.S n' => walk n' r end
                       end.
Lemma after_char : forall a r, ~ In 59 a -> after [59] (a ++ 59 :: r) = Some r.
Proof.
  induction a as [|c a IH]; intros r Ha; cbn [app]; [reflexivity|]. cbn [after has_prefix]. destruct (Z.eqb_spec 59 c); [exfalso; apply Ha; left; auto|]. cbn [andb]. apply IH. intros Hi; apply Ha; right; auto.
Qed.
Lemma contains_tail : forall p c a, ~ contains p (c :: a) -> ~ contains p a.
Proof. intros p c a Hn (x & y & ->). apply Hn. exists (c :: x), y. reflexivity. Qed.
Lemma after_pi : forall a r, ~ contains [63; 62] a -> after [63; 62] (a ++ 63 :: 62 :: r) = Some r.
Proof.
  induction a as [|c a IH]; intros r Ha; cbn [app]; [reflexivity|]. cbn [after].
  assert (X : has_prefix [63; 62] (c :: a ++ 63 :: 62 :: r) = false).
  { cbn [has_prefix]. destruct (Z.eqb_spec 63 c) as [<-|]; [|reflexivity]. destruct a as [|d a]; [reflexivity|]. cbn [app]. destruct (Z.eqb_spec 62 d) as [<-|]; [|reflexivity].
    exfalso. apply Ha. exists [], a. reflexivity. }
  rewrite X. apply IH. eapply contains_tail; eauto.
Qed.
Lemma after_comment : forall a r, ~ contains [45; 45] a -> after [45; 45; 62] (a ++ 45 :: 45 :: 62 :: r) = Some r.
Proof.
  induction a as [|c a IH]; intros r Ha; cbn [app]; [reflexivity|]. cbn [after].
  assert (X : has_prefix [45; 45; 62] (c :: a ++ 45 :: 45 :: 62 :: r) = false).
  { cbn [has_prefix]. destruct (Z.eqb_spec 45 c) as [<-|]; [|reflexivity]. destruct a as [|d a]; [reflexivity|]. cbn [app]. destruct (Z.eqb_spec 45 d) as [<-|]; [|reflexivity].
    exfalso. apply Ha. exists [], a. reflexivity. }
  rewrite X. apply IH. eapply contains_tail; eauto.
Qed.
Lemma quoteb_no : forall c, ~ quoting c -> quoteb c = false. Proof. intros c Hc. unfold quoting, quoteb in *. lia. Qed.
Lemma quoteb_yes : forall c, quoting c -> quoteb c = true /\ (c =? 62) = false /\ (c =? 40) = false. Proof. intros c Hc. unfold quoting, quoteb in *. lia. Qed.
Lemma scan_open : forall a, open_decl a -> forall r, scan None (a ++ r) = scan None r.
Proof.
  induction 1 as [|c t Hq Hg _ IH|q a t Hq Hn _ IH]; intros r; [reflexivity| |]; cbn [app scan].
  - rewrite (quoteb_no c Hq). destruct (Z.eqb_spec c 62); [congruence|]. apply IH.
  - destruct (quoteb_yes q Hq) as (-> & -> & _). rewrite <- (IH r). clear IH. revert Hn. induction a as [|c a IHa]; intros Hn; cbn [app scan].
    + rewrite Z.eqb_refl. reflexivity.
    + destruct (Z.eqb_spec c q); [exfalso; apply Hn; left; auto|]. apply IHa. intros Hi; apply Hn; right; auto.
Qed.
Lemma paren_open : forall a, open_decl a -> forall r, paren None (a ++ 40 :: r) = true.
Proof.
  induction 1 as [|c t Hq Hg _ IH|q a t Hq Hn _ IH]; intros r; [reflexivity| |]; cbn [app paren].
  - rewrite (quoteb_no c Hq). destruct (Z.eqb_spec c 62); [congruence|]. destruct (c =? 40); [reflexivity|apply IH].
  - destruct (quoteb_yes q Hq) as (-> & -> & ->). rewrite <- (IH r). clear IH. revert Hn. induction a as [|c a IHa]; intros Hn; cbn [app paren].
    + rewrite Z.eqb_refl. reflexivity.
    + destruct (Z.eqb_spec c q); [exfalso; apply Hn; left; auto|]. apply IHa. intros Hi; apply Hn; right; auto.
Qed.
(* no comment is cut off *)
Lemma item_step : forall x r, item x -> legals x -> step (x ++ r) = Some r.
Proof.
  intros x r Hx Hl. destruct Hx as [c Hb|a Ha|a Ha|a Ha|a c _ Hc|c a Hc Ha].
  - cbn [app step]. rewrite Hb. reflexivity.
  - rewrite <- app_comm_cons, <- app_assoc. cbn [app step]. apply after_char, Ha.
  - change (s_ "<?") with [60; 63]. rewrite <- !app_assoc. cbn [app]. cbn [step blank]. exact (after_pi a r Ha).
  - change (s_ "<!--") with [60; 33; 45; 45]. rewrite <- !app_assoc. cbn [app]. cbn [step blank]. exact (after_comment a r Ha).
  - exfalso. apply Forall_app in Hl as [_ Hl]. apply Forall_app in Hl as [_ Hl]. inversion Hl; congruence.
  - change (s_ "<!") with [60; 33]. rewrite <- app_assoc. cbn [app]. rewrite <- app_assoc.
    assert (Hs : step (60 :: 33 :: c :: a ++ [62] ++ r) = scan None (a ++ [62] ++ r)).
    { cbn in Hc. destruct Hc as [<-|[<-|[]]]; reflexivity. }
    rewrite Hs, scan_open by auto. reflexivity.
Qed.
Lemma unknown_b : forall l, unknown l -> unknownb l = true.
Proof.
  intros l [H1 H2]. destruct l as [|c t]; [destruct H1|]. unfold unknownb. destruct H1 as (-> & Hc & Hd). assert (X : negb (c =? 37) && negb (c =? 93) = true) by lia. cbn [negb andb].
  rewrite X. cbn [andb]. apply forallb_forall. intros k Hk. destruct (has_prefix k (c :: t)) eqn:Hp; [|reflexivity]. apply has_prefix_true in Hp as (r & Hr). exfalso. exact (H2 k Hk r Hr).
Qed.
Lemma walk_items : forall xs r n, Forall item xs -> legals (concat xs) -> walk n (concat xs ++ r) = true -> ~ unknown r.
Proof.
  induction xs as [|x xs IH]; intros r n Hx Hl Hw; cbn [concat app] in *.
  - intros Hu. apply unknown_b in Hu. destruct n; cbn [walk] in Hw; rewrite Hu in Hw; discriminate.
  - inversion Hx; subst. apply Forall_app in Hl as [L1 L2]. rewrite <- app_assoc in Hw.
    destruct n; cbn [walk] in Hw; rewrite (item_step x) in Hw by auto; apply andb_true_iff in Hw as [_ Hw]; [discriminate|]. eapply IH; eauto.
Qed.

(* ---- literals ---- *)
Fixpoint repl (n : nat) (t : list Z) : option (list Z) :=
  match t with
  | [] => Some []
  | c :: r => match n with
              | O => None
              | Datatypes.S n' =>
                  if (c =? 38) && (hd 0 r =? 35)
                  then match reference r with Some (x, t') => option_map (cons x) (repl n' t') | None => Some [] end
                  else option_map (cons c) (repl n' r)
              end
  end.
Lemma repl_is : forall t v, replaced t v -> forall n w, repl n t = Some w -> w = v.
Proof.
  induction 1 as [|c t v Hc _ IH|t x t' v Hr _ IH]; intros n w Hw.
  - destruct n; inversion Hw; reflexivity.
  - destruct n; cbn [repl] in Hw; [discriminate|]. assert (X : (c =? 38) && (hd 0 t =? 35) = false) by (destruct (Z.eqb_spec c 38) as [Ec|]; [specialize (Hc Ec); destruct (Z.eqb_spec (hd 0 t) 35); [contradiction|reflexivity]|reflexivity]).
    rewrite X in Hw. destruct (repl n t) as [w'|] eqn:Hn; inversion Hw; subst. rewrite (IH _ _ Hn). reflexivity.
  - destruct n; cbn [repl] in Hw; [discriminate|]. cbn [hd] in Hw. change ((38 =? 38) && (35 =? 35)) with true in Hw. cbv iota in Hw. rewrite Hr in Hw.
    destruct (repl n t') as [w'|] eqn:Hn; inversion Hw; subst. rewrite (IH _ _ Hn). reflexivity.
Qed.
Fixpoint cdatab (l : list Z) : bool := negb (has_prefix (s_ "<![") l) && match l with [] => true | _ :: t => cdatab t end.
Definition mildb (l : list Z) : bool := negb (existsb (Z.eqb 58) l) && cdatab l.
Lemma mild_by : forall E l, ~ In 58 l -> ~ contains (s_ "<![CDATA[") l -> mild E l.
Proof.
  intros E l H1 H2 pre suf ->. split; intros r ->; exfalso.
  - apply H2. exists pre, r. reflexivity.
  - apply H1, in_or_app. right; left; reflexivity.
Qed.
Lemma mildb_mild : forall E l, mildb l = true -> mild E l.
Proof.
  intros E l Hl. apply andb_true_iff in Hl as [H1 H2]. apply negb_true_iff in H1. apply mild_by.
  - intros Hi. assert (Y : existsb (Z.eqb 58) l = true) by (apply existsb_exists; exists 58; split; [auto|apply Z.eqb_refl]). congruence.
  - intros (a & b & ->). induction a as [|c a IH]; cbn [app cdatab] in H2; [discriminate|]. apply andb_true_iff in H2 as [_ H2]. apply IH; [exact H2|]. cbn [app existsb] in H1. apply orb_false_iff in H1. tauto.
Qed.
Definition literalb (L n : nat) (q : Z) (t : list Z) : bool :=
  match repl n (takeW (fun c => legal c && negb (c =? q)) t) with
  | Some v => mildb v && (Nat.leb (List.length v) L)
  | None => false
  end.
Lemma take_all : forall (f : Z -> bool) lit r, Forall (fun c => f c = true) lit -> f (hd 0 r) = false \/ r = [] -> takeW f (lit ++ r) = lit.
Proof.
  intros f lit r Hl Hr. induction Hl as [|c lit Hc _ IH]; cbn [app takeW].
  - destruct r as [|c r]; [reflexivity|]. cbn [takeW]. destruct Hr as [Hr|Hr]; [|discriminate]. cbn [hd] in Hr. rewrite Hr. reflexivity.
  - rewrite Hc, IH. reflexivity.
Qed.
Definition wordb (c : Z) : bool := negb (blank c) && negb (quoteb c) && negb (c =? 62) && negb (c =? 91).
(* ---- the four conditions, at one place ---- *)
Definition headok (L n : nat) (l : list Z) : bool :=
  (if has_prefix (s_ "<!DOCTYPE") l then walk n (tl (dropW (fun c => negb (c =? 91)) l)) else true) &&
  (if has_prefix (s_ "<!ATTLIST") l
   then negb (hd 0 (dropW blank (dropW wordb (dropW blank (skipn 9 l)))) =? 62) && negb (paren None (skipn 9 l)) else true) &&
  (match l with q :: t => if quoteb q then literalb L n q t else true | [] => true end).
Fixpoint okb (L n : nat) (l : list Z) : bool := headok L n l && match l with [] => true | _ :: t => okb L n t end.
Lemma okb_suffix : forall L n pre suf, okb L n (pre ++ suf) = true -> headok L n suf = true.
Proof.
  induction pre as [|c pre IH]; intros suf Hp; cbn [app okb] in Hp.
  - destruct suf; cbn [okb] in Hp; apply andb_true_iff in Hp; tauto.
  - apply andb_true_iff in Hp as [_ Hp]. auto.
Qed.
Lemma drop_all : forall (f : Z -> bool) a r, Forall (fun c => f c = true) a -> dropW f (a ++ r) = dropW f r.
Proof. intros f a r Ha. induction Ha as [|c a Hc _ IH]; [reflexivity|]. cbn [app dropW]. rewrite Hc. exact IH. Qed.
Lemma word_b : forall n, word n -> Forall (fun c => wordb c = true) n.
Proof. intros n Hn. eapply Forall_impl; [|exact Hn]. intros c (H1 & H2 & H3 & H4). unfold wordb. rewrite H1, (quoteb_no c H2). lia. Qed.
Lemma okb_ok : forall E L n l, legals l -> okb L n l = true -> subset_ok E L l.
Proof.
  intros E L n l Hlg Hl pre suf ->. apply okb_suffix in Hl. unfold headok in Hl. apply Forall_app in Hlg as [_ Hlg].
  apply andb_true_iff in Hl as [Hl H3]. apply andb_true_iff in Hl as [H1 H2].
  refine (conj _ (conj _ (conj _ _))).
  - intros b m b' e its r -> Hb Hm Hb' He (xs & Hx & ->). rewrite has_prefix_app in H1.
    assert (X : dropW (fun c => negb (c =? 91)) (s_ "<!DOCTYPE" ++ b ++ m ++ b' ++ e ++ 91 :: concat xs ++ r) = 91 :: concat xs ++ r).
    { rewrite drop_all; [|repeat constructor]. rewrite drop_all; [|eapply Forall_impl; [|exact Hb]; intros c Hc; cbv beta in *; unfold blank in Hc; lia].
      rewrite drop_all; [|eapply Forall_impl; [|exact Hm]; intros c Hc; cbv beta in *; lia]. rewrite drop_all; [|eapply Forall_impl; [|exact Hb']; intros c Hc; cbv beta in *; unfold blank in Hc; lia].
      rewrite drop_all; [|destruct He as [->| ->]; repeat constructor]. reflexivity. }
    rewrite X in H1. cbn [tl] in H1. eapply walk_items; eauto. repeat (apply Forall_app in Hlg as [_ Hlg]). inversion Hlg; subst. apply Forall_app in H5. apply H5.
  - intros b m b' r -> Hb Hm Hb'. rewrite has_prefix_app in H2. apply andb_true_iff in H2 as [H2 _].
    assert (Y : forall z, skipn 9 (s_ "<!ATTLIST" ++ z) = z) by reflexivity. rewrite Y in H2. rewrite drop_all in H2 by exact Hb.
    assert (Z1 : dropW blank (dropW wordb (dropW blank (m ++ b' ++ 62 :: r))) = 62 :: r).
    { destruct m as [|c m]; cbn [app].
      - rewrite (drop_all blank) by exact Hb'. cbn [dropW]. reflexivity.
      - inversion Hm as [|? ? (B & _) _]; subst. cbn [dropW]. rewrite B. rewrite app_comm_cons. rewrite drop_all by (apply word_b; auto).
        destruct b' as [|d b']; [reflexivity|]. inversion Hb' as [|? ? D1 D2]; subst. cbn [app dropW]. unfold wordb at 1. rewrite D1. cbn [negb andb dropW]. rewrite D1. rewrite drop_all by auto. reflexivity. }
    rewrite Z1 in H2. discriminate.
  - intros a r -> Ha. rewrite has_prefix_app in H2. apply andb_true_iff in H2 as [_ H2].
    assert (Y : forall z, skipn 9 (s_ "<!ATTLIST" ++ z) = z) by reflexivity. rewrite Y in H2. rewrite paren_open in H2 by auto. discriminate.
  - intros q lit r v -> Hq Hlit Hn He Hv. destruct (quoteb_yes q Hq) as (Q & _). rewrite Q in H3. unfold literalb in H3.
    rewrite take_all in H3.
    + destruct (repl n lit) as [w|] eqn:Hw; [|discriminate]. apply (repl_is _ _ Hv) in Hw. subst w. apply andb_true_iff in H3 as [M1 M2]. split; [apply mildb_mild; auto|apply Nat.leb_le; auto].
    + apply Forall_forall. intros c Hc. pose proof (proj1 (Forall_forall _ _) Hlit c Hc) as X. cbv beta in X. rewrite X. destruct (Z.eqb_spec c q); [subst; contradiction|reflexivity].
    + destruct r as [|c r]; [right; reflexivity|]. left. cbn [ends hd] in *. destruct He as [->|He]; [rewrite Z.eqb_refl; apply andb_false_r|rewrite He; reflexivity].
Qed.

(* a document with every kind of declaration; the entity f is referred to in
   the text, in a default and in another entity *)
Definition sub_src : str := s_ "<!DOCTYPE r [
<!ELEMENT r (a,b?)><!-- c > --><?t d > ?>
<!ENTITY f ""<a/>b&#65;>""><!ENTITY g '&f;&g;'><!ENTITY % p ""x""> %p;
<!ATTLIST r x NMTOKEN ' 1 ' y CDATA #FIXED ""v&f;&#32;>"" z ID #IMPLIED>
]><r x=' 2 '>&f;</r>".
Lemma sub_ascii : forall l', suffix l' sub_src -> runes_of l' = l'.
Proof.
  intros l' Hs. eapply ascii_suffix; [|exact Hs]. apply Forall_forall. assert (X : forallb (fun c => (0 <=? c) && (c <? 128)) sub_src = true) by (vm_compute; reflexivity).
  rewrite forallb_forall in X. intros x Hx. specialize (X x Hx). lia.
Qed.
Lemma sub_ok : forall E, mild E sub_src /\ subset_ok E 150 sub_src.
Proof.
  intros E. split.
  - apply mild_by; [notin|]. apply no_infix. vm_compute. reflexivity.
  - apply (okb_ok E 150 400); [|vm_compute; reflexivity]. apply Forall_forall. assert (X : forallb legal sub_src = true) by (vm_compute; reflexivity).
    rewrite forallb_forall in X. exact X.
Qed.
Lemma sub_by : forall eof pct c rest, suffix rest sub_src -> mild (env0 eof pct) (decode (env0 eof pct) c rest) /\ subset_ok (env0 eof pct) 150 (decode (env0 eof pct) c rest).
Proof.
  intros eof pct c rest Hs. cbn [decode env0]. rewrite (sub_ascii _ Hs). destruct (sub_ok (env0 eof pct)) as [M1 M2]. split; [eapply mild_suffix; eauto|eapply subset_suffix; eauto].
Qed.


(* ---- inputs on which the parser hangs ---- *)
Lemma subsetLoop_S : forall E S (H : handler S) n, subsetLoop E S H (Datatypes.S n) =
  bind S (mdone S) (fun d => bind S (mpeek E S) (fun c => if (d : bool) || (c =? 93) then ret S tt else
    bind S (mskip S) (fun _ => bind S (wrap S (parseMarkupDecl E S H n)) (fun _ => bind S (wrap S (parsePEReference E S H)) (fun _ => subsetLoop E S H n))))).
Proof. reflexivity. Qed.
Lemma hang_attlist : forall eof, eof_ok eof -> hangs eof (s_ "<!DOCTYPE r [<!ATTLIST r>]><r/>").
Proof.
  intros eof He n pct. do 4 (destruct n as [|n]; [destruct He as [->| ->]; destruct pct; vm_compute; reflexivity|]).
  destruct He as [->| ->]; destruct pct; unfold Parse, parseDocument; do 9 Counter.step;
    (apply bind_oof1; unfold parseDTD; do 3 Counter.step; apply bind_oof1; apply wrap_oof;
     unfold parseInternalSubset; Counter.step; change (negb (91 =? 91)) with false; cbv iota; apply bind_oof1; Counter.step; apply bind_oof1;
     rewrite subsetLoop_S; do 2 Counter.step; change (60 =? 93) with false; cbn [orb]; do 3 Counter.step;
     apply (subset_junk _ _ _ 62 (s_ "]><r/>")); try discriminate; reflexivity).
Qed.
Lemma hang_late : forall eof, eof_ok eof -> hangs eof (s_ "<!DOCTYPE r>[x").
Proof.
  intros eof He n pct. do 3 (destruct n as [|n]; [destruct He as [->| ->]; destruct pct; vm_compute; reflexivity|]).
  destruct He as [->| ->]; destruct pct; unfold Parse, parseDocument; do 9 Counter.step;
    (apply bind_oof1; unfold parseDTD; do 3 Counter.step; apply bind_oof1; apply wrap_oof;
     unfold parseInternalSubset; Counter.step; change (negb (91 =? 91)) with false; cbv iota; apply bind_oof1; Counter.step; apply bind_oof1;
     apply (subset_junk _ _ _ 120 []); try discriminate; reflexivity).
Qed.
