(* Tests for [one_default] and [prefixes_named] and the document of the example
   of C22_tree_partial in PropertiesPanic.v. *)
From Verif Require Import Base Utf8 XmlSpec Encoding Scan ScanProofs Parser LexProofs Sample ParserEx NoPanic DtdSafeEx TreeSafeParse.
From Coq Require Import ZifyBool.
Local Open Scope Z_scope.

Definition defb (l : list Z) : bool := has_prefix (s_ "xmlns") l && negb (hd 0 (skipn 5 l) =? 58).
Fixpoint nodefb (l : list Z) : bool := negb (defb l) && match l with [] => true | _ :: t => nodefb t end.
Fixpoint oneb (l : list Z) : bool := (negb (defb l) || nodefb (skipn 5 l)) && match l with [] => true | _ :: t => oneb t end.
Fixpoint namedb (p : Z -> bool) (l : list Z) : bool :=
  (negb (has_prefix (s_ "xmlns:") l) || p (hd 0 (skipn 6 l))) && match l with [] => true | _ :: t => namedb p t end.

Lemma nodefb_at : forall a l, nodefb (a ++ l) = true -> defb l = false.
Proof.
  induction a as [|c a IH]; intros l H; cbn [app nodefb] in H.
  - destruct l; cbn [nodefb] in H; apply andb_true_iff in H as [H _]; now apply negb_true_iff in H.
  - apply andb_true_iff in H as [_ H]. auto.
Qed.
Lemma oneb_at : forall a l, oneb (a ++ l) = true -> defb l = true -> nodefb (skipn 5 l) = true.
Proof.
  induction a as [|c a IH]; intros l H D.
  - cbn [app] in H. destruct l; cbn [oneb] in H; apply andb_true_iff in H as [H _]; rewrite D in H; exact H.
  - cbn [app oneb] in H. apply andb_true_iff in H as [_ H]. auto.
Qed.
Lemma namedb_at p : forall a l, namedb p (a ++ l) = true -> has_prefix (s_ "xmlns:") l = true -> p (hd 0 (skipn 6 l)) = true.
Proof.
  induction a as [|c a IH]; intros l H D.
  - cbn [app] in H. destruct l; cbn [namedb] in H; apply andb_true_iff in H as [H _]; rewrite D in H; exact H.
  - cbn [app namedb] in H. apply andb_true_iff in H as [_ H]. auto.
Qed.
Lemma defb_here x : defb (s_ "xmlns" ++ x) = negb (hd 0 x =? 58).
Proof. unfold defb. rewrite has_prefix_app. reflexivity. Qed.
Lemma oneb_ok : forall l, oneb l = true -> one_default l.
Proof.
  intros l H a b c ->. destruct (Z.eqb_spec (hd 0 b) 58) as [|N]; [auto|]. right.
  assert (D : defb (s_ "xmlns" ++ b ++ s_ "xmlns" ++ c) = true).
  { rewrite defb_here. destruct b as [|y b]; [reflexivity|]. cbn [app hd]. cbn [hd] in N. lia. }
  pose proof (oneb_at _ _ H D) as X. change (skipn 5 (s_ "xmlns" ++ b ++ s_ "xmlns" ++ c)) with (b ++ s_ "xmlns" ++ c) in X.
  apply nodefb_at in X. rewrite defb_here in X. lia.
Qed.
Lemma namedb_ok E : forall l, namedb (Grammar.name_part E) l = true -> prefixes_named E l.
Proof.
  intros l H a b ->. apply namedb_at in H; [|apply has_prefix_app]. exact H.
Qed.

(* every & starts &amp; or a character reference *)
Fixpoint ampb (l : list Z) : bool :=
  match l with
  | [] => true
  | c :: t => (if c =? 38 then has_prefix [97; 109; 112; 59] t || has_prefix [35] t else true) && ampb t
  end.
Lemma ampb_at : forall pre t, ampb (pre ++ 38 :: t) = true -> has_prefix [97; 109; 112; 59] t || has_prefix [35] t = true.
Proof. induction pre as [|c pre IH]; intros t Hr; cbn [app ampb] in Hr; apply andb_true_iff in Hr as [Ha Hb]; auto. Qed.
Lemma ampb_ok : forall eof pct G l, ampb l = true -> refs_ok (env0 eof pct) G l.
Proof.
  intros eof pct G l Hl pre c name rest -> Hc Hn Hr. left. apply ampb_at in Hl. apply orb_true_iff in Hl as [Hl|Hl].
  - apply has_prefix_true in Hl as (r & Hl). cbn [app] in Hl. injection Hl as -> Hl.
    destruct name as [|c1 name]; [cbn [app] in Hl; subst; discriminate Hr|]. injection Hl as -> Hl.
    destruct name as [|c2 name]; [cbn [app] in Hl; subst; discriminate Hr|]. injection Hl as -> Hl.
    destruct name as [|c3 name]; [cbn; tauto|]. injection Hl as -> Hl.
    exfalso. do 2 (inversion Hn as [|? ? _ Hn']; subst; clear Hn; rename Hn' into Hn). inversion Hn as [|? ? Hx]; subst. discriminate Hx.
  - apply has_prefix_true in Hl as (r & Hl). cbn [app] in Hl. injection Hl as -> Hl. discriminate Hc.
Qed.

Definition names_src : str :=
  s_ "<?xml version='1.0'?><a xmlns='u' xmlns:p='v' b='&amp;x'><p:c xmlns:q='w' q:d='&#65;'>t<!--k--></p:c><?q r?><![CDATA[z]]></a>".
Lemma names_ascii : forall l', suffix l' names_src -> runes_of l' = l'.
Proof. intros l' Hs. eapply ascii_suffix; [|exact Hs]. apply Forall_forall. assert (X : forallb (fun c => (0 <=? c) && (c <? 128)) names_src = true) by reflexivity. rewrite forallb_forall in X. intros x Hx. specialize (X x Hx). lia. Qed.
Lemma names_by : forall eof pct c rest, suffix rest names_src ->
  let l := decode (env0 eof pct) c rest in
  refs_ok (env0 eof pct) (fun _ => False) l /\ no_doctype l /\ (5 * List.length l < 700)%nat /\ one_default l /\ prefixes_named (env0 eof pct) l.
Proof.
  intros eof pct c rest Hs l. subst l. cbn [decode env0]. rewrite (names_ascii _ Hs).
  split; [|split; [|split; [|split]]].
  - eapply refs_suffix; [|exact Hs]. apply ampb_ok. reflexivity.
  - eapply doctype_suffix; [|exact Hs]. intros pre r He.
    assert (X : existsb (fun k => has_prefix (s_ "<!DOCTYPE") (skipn k names_src)) (seq 0 (List.length names_src + 1)) = false) by (vm_compute; reflexivity).
    apply no_infix in X. apply X. exists pre, r. exact He.
  - destruct Hs as (p & Hp). apply (f_equal (@List.length Z)) in Hp. rewrite app_length in Hp.
    assert (X : (5 * List.length names_src < 700)%nat) by (vm_compute; lia). lia.
  - eapply one_suffix; [|exact Hs]. apply oneb_ok. vm_compute. reflexivity.
  - eapply named_suffix; [|exact Hs]. apply namedb_ok. vm_compute. reflexivity.
Qed.
Lemma names_percent : late_percent names_src.
Proof.
  intros pre b r He Hb. exfalso. assert (X : In 37 names_src) by (rewrite He; apply in_or_app; right; right; left; reflexivity).
  revert X. notin.
Qed.
