(* A test for [tame] and the document of the example of PropertiesPanic.v. *)
From Verif Require Import Base Utf8 XmlSpec Encoding Scan ScanProofs Parser LexProofs Sample ParserEx NoPanic DtdSafe.
From Coq Require Import ZifyBool.

Definition hexb (c : Z) : bool := match hex_val c with Some _ => true | None => false end.
Definition wsb (c : Z) : bool := (c =? 32) || (c =? 13) || (c =? 10) || (c =? 9).
Definition quoteb (c : Z) : bool := (c =? 34) || (c =? 39).
Definition cutb (l : list Z) : bool := match l with [] => true | c :: _ => quoteb c || negb (text_char c) end.
Definition no_run (q : Z) (first : bool) (l : list Z) : bool :=
  let r := dropW wsb l in negb (hd 0 r =? 38) && negb (first && negb (Nat.eqb (List.length l) (List.length r)) && (hd 0 r =? q)).
Definition headb (l : list Z) : bool :=
  negb (has_prefix [41; 43] l) &&
  (if has_prefix [38; 35] l
   then let r := skipn 2 l in negb (cutb (dropW hexb r)) && negb (has_prefix [120] r && cutb (dropW hexb (skipn 1 r))) else true) &&
  (match l with q :: t => if quoteb q then no_run q false t else true | [] => true end) &&
  (match l with w :: q :: t => if wsb w && quoteb q then no_run q true t else true | _ => true end).
Fixpoint tameb (l : list Z) : bool := headb l && match l with [] => true | _ :: t => tameb t end.

Lemma tameb_suffix : forall pre suf, tameb (pre ++ suf) = true -> headb suf = true.
Proof.
  induction pre as [|c pre IH]; intros suf Hp; cbn [app tameb] in Hp.
  - destruct suf; cbn [tameb] in Hp; apply andb_true_iff in Hp; tauto.
  - apply andb_true_iff in Hp as [_ Hp]. auto.
Qed.
Lemma wsb_in : forall c, In c [32; 13; 10; 9] <-> wsb c = true.
Proof. intros c. unfold wsb. cbn. lia. Qed.
Lemma hexb_is : forall c, hexdigit c -> hexb c = true.
Proof. intros c. unfold hexdigit, hexb. destruct (hex_val c); congruence. Qed.
Lemma hexb_plain : forall c, hexb c = true -> cutb (c :: []) = false.
Proof.
  intros c. unfold hexb, hex_val, cutb, quoteb, text_char, xml_char. destruct ((48 <=? c) && (c <=? 57)) eqn:A; [lia|].
  destruct ((65 <=? c) && (c <=? 70)) eqn:B; [lia|]. destruct ((97 <=? c) && (c <=? 102)) eqn:C; [lia|discriminate].
Qed.
Lemma cut_is : forall l, cut l -> cutb l = true.
Proof. intros [|c l]; [reflexivity|]. unfold cut, cutb, quote, quoteb. intros [[->| ->]|Hc]; [reflexivity..|]. rewrite Hc. apply orb_true_r. Qed.
Lemma cut_digits : forall d r, Forall hexdigit d -> cut r -> cutb (dropW hexb (d ++ r)) = true.
Proof.
  induction d as [|c d IH]; intros r Hd Hr; cbn [app].
  - apply cut_is in Hr. destruct r as [|c r]; [reflexivity|]. cbn [dropW]. destruct (hexb c) eqn:Hc; [|exact Hr].
    apply hexb_plain in Hc. cbn [cutb] in *. congruence.
  - inversion Hd; subst. cbn [dropW]. rewrite hexb_is by auto. auto.
Qed.
Lemma run_blank : forall b k l r, blank_run b k l r -> hd 0 (dropW wsb l) <> 38 ->
  b = false /\ (k <> 0%nat -> l <> r /\ (List.length r < List.length l)%nat) /\ (wsb (hd 0 r) = false -> dropW wsb l = r).
Proof.
  induction 1 as [r|b k c l r Hc Hr IH|b k t s r Ht Hr IH]; intros Hh.
  - split; [auto|]. split; [congruence|]. destruct r as [|c r]; [reflexivity|]. cbn. intros ->. reflexivity.
  - apply wsb_in in Hc. cbn [dropW] in Hh. rewrite Hc in Hh. destruct (IH Hh) as (-> & I1 & I2). split; [auto|]. split.
    + intros _. assert (X : (List.length r <= List.length l)%nat).
      { destruct k; [inversion Hr; subst; lia|]. destruct (I1 ltac:(discriminate)) as [_ X]. lia. }
      split; [|cbn; lia]. intros <-. cbn in X. lia.
    + intros Hw. cbn [dropW]. rewrite Hc. auto.
  - exfalso. apply Hh. reflexivity.
Qed.
Lemma quote_nb : forall q, quote q -> wsb q = false /\ quoteb q = true.
Proof. intros q [->| ->]; split; reflexivity. Qed.
Lemma tameb_tame : forall l, tameb l = true -> tame l.
Proof.
  intros l Hl pre suf ->. apply tameb_suffix in Hl. unfold headb in Hl.
  apply andb_true_iff in Hl as [Hl H4]. apply andb_true_iff in Hl as [Hl H3]. apply andb_true_iff in Hl as [H1 H2].
  refine (conj _ (conj _ (conj _ _))).
  - intros r ->. discriminate H1.
  - intros x d r -> Hx Hd Hr. change (has_prefix [38; 35] (38 :: 35 :: x ++ d ++ r)) with true in H2. cbn [skipn] in H2.
    apply andb_true_iff in H2 as [Ha Hb]. destruct Hx as [->| ->].
    + cbn [app] in Ha. rewrite cut_digits in Ha; auto. discriminate.
    + cbn [app skipn] in Hb. rewrite cut_digits in Hb; auto. discriminate.
  - intros q t k r -> Hq Hr He. apply quote_nb in Hq as [_ Hq]. rewrite Hq in H3. unfold no_run in H3. cbv zeta in H3.
    apply andb_true_iff in H3 as [Ha _]. destruct (run_blank _ _ _ _ Hr ltac:(lia)) as [X _]. discriminate.
  - intros w q t b k r -> Hw Hq Hr. apply wsb_in in Hw. apply quote_nb in Hq as [Hq1 Hq]. rewrite Hw, Hq in H4. cbn [andb] in H4. unfold no_run in H4. cbv zeta in H4.
    apply andb_true_iff in H4 as [Ha Hb]. destruct (run_blank _ _ _ _ Hr ltac:(lia)) as (-> & I1 & I2). cbn [hd] in I2. rewrite (I2 Hq1) in Hb.
    destruct (I1 ltac:(discriminate)) as [_ X]. cbn [andb hd] in Hb. rewrite Z.eqb_refl in Hb. 
    destruct (Nat.eqb_spec (List.length t) (List.length (q :: r))); [lia|discriminate].
Qed.

(* a document with every kind of declaration *)
Definition dtd_src : str := s_ "<!DOCTYPE r [<!ELEMENT r (a,b?)><!ATTLIST r x NMTOKEN ' 1 ' y CDATA #FIXED ""v&e;&#32;"" z ID #IMPLIED><!ENTITY f 'a&#65;b'><!--c--><?t d?>]><r x=' 2 '><a/></r>".
Lemma dtd_ascii : forall l', suffix l' dtd_src -> runes_of l' = l'.
Proof. intros l' Hs. eapply ascii_suffix; [|exact Hs]. apply Forall_forall. assert (X : forallb (fun c => (0 <=? c) && (c <? 128)) dtd_src = true) by reflexivity. rewrite forallb_forall in X. intros x Hx. specialize (X x Hx). lia. Qed.
Lemma dtd_tame : tame dtd_src.
Proof. apply tameb_tame. vm_compute. reflexivity. Qed.
Fixpoint refsb (l : list Z) : bool :=
  match l with
  | [] => true
  | c :: t => (if c =? 38 then has_prefix [101; 59] t || has_prefix [35] t else true) && refsb t
  end.
Lemma refsb_at : forall pre t, refsb (pre ++ 38 :: t) = true -> has_prefix [101; 59] t || has_prefix [35] t = true.
Proof. induction pre as [|c pre IH]; intros t Hr; cbn [app refsb] in Hr; apply andb_true_iff in Hr as [Ha Hb]; auto. Qed.
Lemma refsb_ok : forall eof pct l, refsb l = true -> refs_ok (env0 eof pct) only_e l.
Proof.
  intros eof pct l Hl pre c name rest -> Hc Hn Hr. apply refsb_at in Hl. apply orb_true_iff in Hl as [Hl|Hl].
  - apply has_prefix_true in Hl as (r & Hl). cbn [app] in Hl. injection Hl as -> Hl. right. destruct name as [|x name]; [reflexivity|].
    cbn in Hl. injection Hl as -> _. inversion Hn as [|? ? Hx]; subst. discriminate Hx.
  - apply has_prefix_true in Hl as (r & Hl). cbn [app] in Hl. injection Hl as -> Hl. discriminate Hc.
Qed.
Lemma dtd_by : forall eof pct c rest, suffix rest dtd_src -> refs_ok (env0 eof pct) only_e (decode (env0 eof pct) c rest) /\
  (no_doctype (decode (env0 eof pct) c rest) \/ tame (decode (env0 eof pct) c rest)).
Proof.
  intros eof pct c rest Hs. cbn [decode env0]. rewrite (dtd_ascii _ Hs). split.
  - eapply refs_suffix; [|exact Hs]. apply refsb_ok. reflexivity.
  - right. eapply tame_suffix; [exact dtd_tame|exact Hs].
Qed.
Lemma dtd_entity : forall eof pct h v n, True -> only_e n -> 
  exists e, snd (h_getEntity loopH h v n) = Answer (Some (Real e)) false /\ e_type e <> InternalPredefinedEntity /\
    (e_type e = InternalGeneralEntity -> refs_ok (env0 eof pct) only_e (runes_of (e_content e))).
Proof. intros eof pct h v n _ ->. eexists. split; [reflexivity|]. split; [discriminate|]. intros _. apply refsb_ok. reflexivity. Qed.
Lemma dtd_no_decl : forall a r, dtd_src <> a ++ s_ "<?xml" ++ r.
Proof.
  intros a r He. assert (X : existsb (fun k => has_prefix (s_ "<?xml") (skipn k dtd_src)) (seq 0 (List.length dtd_src + 1)) = false) by (vm_compute; reflexivity).
  apply no_infix in X. apply X. exists a, r. exact He.
Qed.
