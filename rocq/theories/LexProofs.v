(* Exactness of the scanners of Scan.v. *)
From Verif Require Import Base Utf8 Utf8Proofs Encoding XmlSpec EscapeProofs Scan ScanProofs.

Lemma isChar_spec : forall c, isChar c = xml_char c && negb (c =? RuneError).
Proof. intros c; unfold isChar, xml_char, RuneError. destruct (Z.eqb_spec c 65533), (Z.ltb_spec c 0), (Z.ltb_spec c 256); lia. Qed.
Lemma isChar_valid : forall c, isChar c = true -> valid_rune c = true.
Proof. intros c; unfold isChar, valid_rune, RuneError. destruct (Z.eqb_spec c 65533), (Z.ltb_spec c 0), (Z.ltb_spec c 256); lia. Qed.
Lemma isChar_range : forall c, isChar c = true -> 0 < c <= 1114111.
Proof. intros c; unfold isChar, RuneError. destruct (Z.eqb_spec c 65533), (Z.ltb_spec c 0), (Z.ltb_spec c 256); lia. Qed.
Lemma isChar_xml : forall c, isChar c = true -> xml_char c = true.
Proof. intros c; rewrite isChar_spec. intros H; apply andb_true_iff in H; tauto. Qed.
Lemma isChar_err : isChar RuneError = false. Proof. reflexivity. Qed.
Lemma isChar_0 : isChar 0 = false. Proof. reflexivity. Qed.

Lemma hp_app : forall p l, has_prefix p (p ++ l) = true. Proof. intros; apply has_prefix_app. Qed.
Lemma pconsume_app : forall p l, pconsume p (p ++ l) = (Ret true, l).
Proof. intros; unfold pconsume. rewrite has_prefix_app, skipn_app, skipn_all, Nat.sub_diag; auto. Qed.
Lemma pconsume_not : forall p l, has_prefix p l = false -> pconsume p l = (Ret false, l).
Proof. intros p l H; unfold pconsume. rewrite H; auto. Qed.
Lemma pbind_eq : forall A B (p : P A) (f : A -> P B) l a l', p l = (Ret a, l') -> pbind p f l = f a l'.
Proof. intros. unfold pbind. rewrite H; auto. Qed.
Lemma pbind_fail : forall A B (p : P A) (f : A -> P B) l e l', p l = (Fail e, l') -> pbind p f l = (Fail e, l').
Proof. intros. unfold pbind. rewrite H; auto. Qed.
Lemma advance_app : forall E a b, advance E (List.length a) (a ++ b) = b.
Proof.
  intros. unfold advance. rewrite app_length. destruct (Nat.leb_spec (List.length a) (List.length a + List.length b)); [|lia].
  rewrite skipn_app, skipn_all, Nat.sub_diag; auto.
Qed.
Lemma advance_1 : forall E c l, advance E 1 (c :: l) = l.
Proof. intros. apply (advance_app E [c] l). Qed.

(* ---- character references ---- *)
Lemma int32_small : forall z, -2147483648 <= z < 2147483648 -> int32 z = z.
Proof. intros z Hz. unfold int32. rewrite Z.mod_small by lia. lia. Qed.
Lemma int32_cong : forall a b, (a - b) mod 4294967296 = 0 -> int32 a = int32 b.
Proof.
  intros a b Hab. unfold int32. f_equal.
  replace (a + 2147483648) with ((b + 2147483648) + (a - b)) by lia.
  rewrite Z.add_mod by lia. rewrite Hab, Z.add_0_r, Z.mod_mod by lia. auto.
Qed.
Lemma int32_mod : forall a, (int32 a - a) mod 4294967296 = 0.
Proof.
  intros a. unfold int32. pose proof (Z.div_mod (a + 2147483648) 4294967296 ltac:(lia)) as H.
  set (q := (a + 2147483648) / 4294967296) in *. set (r := (a + 2147483648) mod 4294967296) in *.
  replace (r - 2147483648 - a) with ((- q) * 4294967296) by lia. apply Z.mod_mul; lia.
Qed.
Lemma int32_int32 : forall a k, int32 (int32 a + k) = int32 (a + k).
Proof. intros. apply int32_cong. replace (int32 a + k - (a + k)) with (int32 a - a) by lia. apply int32_mod. Qed.
Lemma int32_mul : forall a k, int32 (int32 a * k) = int32 (a * k).
Proof.
  intros. apply int32_cong. replace (int32 a * k - a * k) with ((int32 a - a) * k) by lia.
  rewrite Z.mul_mod, int32_mod by lia. reflexivity.
Qed.

(* what an accumulator does, in terms of the digits of the specification *)
Definition acc_ok (acc : Z -> Z -> option Z) (base : Z) (val : Z -> option Z) : Prop :=
  forall v c, c <> 59 ->
    acc (int32 v) c = match val c with Some d => Some (int32 (v * base + d)) | None => None end.
Lemma accDec_ok : acc_ok accDec 10 dec_val.
Proof.
  intros v c _. unfold accDec, dec_val. destruct ((48 <=? c) && (c <=? 57)) eqn:Hc; [|auto].
  rewrite int32_mul, int32_int32. f_equal.
Qed.
Lemma accHex_ok : acc_ok accHex 16 hex_val.
Proof.
  intros v c _. unfold accHex, hex_val.
  destruct ((48 <=? c) && (c <=? 57)) eqn:Hc; [rewrite int32_mul, int32_int32; auto|].
  destruct ((97 <=? c) && (c <=? 102)) eqn:Hd, ((65 <=? c) && (c <=? 70)) eqn:He; try lia; auto.
  - rewrite int32_mul. replace (int32 (v * 16) + (c - 97) + 10) with (int32 (v * 16) + (c - 87)) by lia.
    rewrite int32_int32; auto.
  - rewrite int32_mul. replace (int32 (v * 16) + (c - 65) + 10) with (int32 (v * 16) + (c - 55)) by lia.
    rewrite int32_int32; auto.
Qed.

Lemma crefLoop_number : forall acc base val, acc_ok acc base val -> forall l seen v0 v rest,
  number base val seen v0 l = Some (v, rest) -> crefLoop acc (int32 v0) l = (Some (int32 v), 59 :: rest).
Proof.
  intros acc base val Hacc. induction l as [|c l IH]; intros seen v0 v rest Hn; [discriminate|].
  cbn [number crefLoop] in *. destruct (Z.eqb_spec c 59) as [->|Hc].
  - destruct seen; inversion Hn; subst; auto.
  - rewrite Hacc by auto. destruct (val c) as [d|]; [|discriminate]. eapply IH; eauto.
Qed.
Lemma crefLoop_bad : forall acc base val, acc_ok acc base val -> forall l v0,
  In 59 l -> number base val true v0 l = None -> fst (crefLoop acc (int32 v0) l) = None.
Proof.
  intros acc base val Hacc. induction l as [|c l IH]; intros v0 Hin Hn; [destruct Hin|].
  cbn [number crefLoop] in *. destruct (Z.eqb_spec c 59) as [->|Hc]; [discriminate|].
  rewrite Hacc by auto. destruct (val c) as [d|]; auto. apply IH; auto. destruct Hin; [congruence|auto].
Qed.

Definition refPrefix (hex : bool) : str := if hex then s_ "&#x" else s_ "&#".
Definition refNumber (hex : bool) : list Z -> option (Z * list Z) :=
  if hex then number 16 hex_val false 0 else number 10 dec_val false 0.

Lemma charref_finish : forall E (acc : Z -> Z -> option Z) k l v rest, crefLoop acc 0 l = (Some v, 59 :: rest) ->
  (match crefLoop acc 0 l with
   | (None, l') => (Fail (Plain k), l')
   | (Some val, l') => let l'' := if peek E l' =? 59 then advance E 1 l' else l' in
       if isChar val && (val <=? 1114111) then (Ret val, l'') else (Fail (Plain "ErrInvalidChar"), l'')
   end) = ((if isChar v then Ret v else Fail (Plain "ErrInvalidChar")), rest).
Proof.
  intros E acc k l v rest H. rewrite H. cbn [peek hd]. rewrite Z.eqb_refl. cbv zeta. rewrite advance_1.
  destruct (isChar v) eqn:Hv; auto. apply isChar_range in Hv. destruct (Z.leb_spec v 1114111); auto; lia.
Qed.

Lemma charref_value : forall E hex l v rest, refNumber hex l = Some (v, rest) ->
  parseCharRef E (refPrefix hex ++ l) =
    ((if isChar (int32 v) then Ret (int32 v) else Fail (Plain "ErrInvalidChar")), rest).
Proof.
  intros E hex l v rest Hn. unfold parseCharRef. destruct hex; cbn [refPrefix refNumber] in *.
  - rewrite (pbind_eq _ _ _ _ _ true l) by apply pconsume_app.
    rewrite (pbind_eq _ _ _ _ _ true l) by reflexivity. cbn [negb].
    apply charref_finish. apply (crefLoop_number accHex 16 hex_val accHex_ok l false 0); auto.
  - rewrite (pbind_eq _ _ _ _ _ false (s_ "&#" ++ l)).
    2:{ apply pconsume_not. destruct l as [|c l]; [reflexivity|]. simpl.
        destruct (Z.eqb_spec 120 c) as [<-|]; [discriminate Hn|reflexivity]. }
    rewrite (pbind_eq _ _ _ _ _ true l) by apply pconsume_app. cbn [negb].
    apply charref_finish. apply (crefLoop_number accDec 10 dec_val accDec_ok l false 0); auto.
Qed.

Lemma crefLoop_semi : forall acc l v0 v l', In 59 l -> crefLoop acc v0 l = (Some v, l') -> exists rest, l' = 59 :: rest.
Proof.
  intros acc; induction l as [|c l IH]; intros v0 v l' Hin Hc; [destruct Hin|].
  cbn [crefLoop] in Hc. destruct (Z.eqb_spec c 59) as [->|Hne]; [inversion Hc; subst; eauto|].
  destruct (acc v0 c) as [v1|]; [|discriminate]. eapply IH; eauto. destruct Hin; [congruence|auto].
Qed.

Lemma charref_bad : forall E hex l, (hex = false -> hd 0 l <> 120) -> In 59 l -> refNumber hex l = None ->
  exists e l', parseCharRef E (refPrefix hex ++ l) = (Fail e, l').
Proof.
  intros E hex l Hx Hin Hn.
  assert (Hcase : forall acc base val, acc_ok acc base val -> number base val false 0 l = None ->
    fst (crefLoop acc 0 l) = None \/ exists rest, crefLoop acc 0 l = (Some 0, 59 :: rest)).
  { intros acc base val Hacc Hnum. destruct l as [|c l]; [destruct Hin|]. cbn [number crefLoop] in *.
    destruct (Z.eqb_spec c 59) as [->|Hne]; [right; eauto|]. left.
    change (acc 0 c) with (acc (int32 0) c). rewrite (Hacc 0 c Hne). destruct (val c) as [d|]; [|auto].
    apply (crefLoop_bad acc base val Hacc); auto. destruct Hin; [congruence|auto]. }
  unfold parseCharRef. destruct hex; cbn [refPrefix refNumber] in *.
  - rewrite (pbind_eq _ _ _ _ _ true l) by apply pconsume_app.
    rewrite (pbind_eq _ _ _ _ _ true l) by reflexivity. cbn [negb].
    destruct (Hcase _ _ _ accHex_ok Hn) as [Hf|[rest Hs]].
    + destruct (crefLoop accHex 0 l) as [[v|] l']; [discriminate|]. eauto.
    + rewrite (charref_finish E accHex _ l 0 rest Hs), isChar_0. eauto.
  - rewrite (pbind_eq _ _ _ _ _ false (s_ "&#" ++ l)).
    2:{ apply pconsume_not. destruct l as [|c l]; [reflexivity|]. simpl.
        destruct (Z.eqb_spec 120 c) as [<-|]; [exfalso; apply Hx; auto|reflexivity]. }
    rewrite (pbind_eq _ _ _ _ _ true l) by apply pconsume_app. cbn [negb].
    destruct (Hcase _ _ _ accDec_ok Hn) as [Hf|[rest Hs]].
    + destruct (crefLoop accDec 0 l) as [[v|] l']; [discriminate|]. eauto.
    + rewrite (charref_finish E accDec _ l 0 rest Hs), isChar_0. eauto.
Qed.

(* in entity values every partial value is checked, so nothing wraps *)
Lemma number_mono : forall base val l seen v0 v rest, 1 <= base -> (forall c d, val c = Some d -> 0 <= d) -> 0 <= v0 ->
  number base val seen v0 l = Some (v, rest) -> v0 <= v.
Proof.
  intros base val l; induction l as [|c l IH]; intros seen v0 v rest Hb Hd H0 Hn; [discriminate|].
  cbn [number] in Hn. destruct (c =? 59); [destruct seen; inversion Hn; lia|].
  destruct (val c) as [d|] eqn:Hv; [|discriminate]. apply Hd in Hv. apply IH in Hn; auto; nia.
Qed.
Lemma dec_pos : forall c d, dec_val c = Some d -> 0 <= d < 10.
Proof. unfold dec_val; intros c d. destruct ((48 <=? c) && (c <=? 57)) eqn:H; intros Q; inversion Q; lia. Qed.
Lemma hex_pos : forall c d, hex_val c = Some d -> 0 <= d < 16.
Proof.
  unfold hex_val; intros c d. destruct ((48 <=? c) && (c <=? 57)) eqn:H; [intros Q; inversion Q; lia|].
  destruct ((65 <=? c) && (c <=? 70)) eqn:H2; [intros Q; inversion Q; lia|].
  destruct ((97 <=? c) && (c <=? 102)) eqn:H3; [intros Q; inversion Q; lia|discriminate].
Qed.
Lemma scrLoop_number : forall acc base val, acc_ok acc base val -> 1 <= base <= 16 -> (forall c d, val c = Some d -> 0 <= d < base) ->
  forall l seen v0 v rest, 0 <= v0 <= 1114111 -> number base val seen v0 l = Some (v, rest) ->
  scrLoop acc v0 l = if v <=? 1114111 then Ret (v, rest) else Fail (Plain "hex CharRef out of range").
Proof.
  intros acc base val Hacc Hb Hd. induction l as [|c l IH]; intros seen v0 v rest H0 Hn; [discriminate|].
  cbn [number scrLoop] in *. destruct (Z.eqb_spec c 59) as [->|Hc].
  - destruct seen; inversion Hn; subst. destruct (Z.leb_spec v 1114111); auto; lia.
  - rewrite <- (int32_small v0) at 1 by lia. rewrite Hacc by auto. destruct (val c) as [d|] eqn:Hv; [|discriminate].
    pose proof (Hd _ _ Hv) as Hdd. rewrite int32_small by nia.
    destruct (Z.ltb_spec 1114111 (v0 * base + d)).
    + apply number_mono in Hn; try nia. 2:{ intros c' d' Hv'; apply Hd in Hv'; lia. }
      destruct (Z.leb_spec v 1114111); auto; lia.
    + apply (IH true); auto. nia.
Qed.
Lemma stringCharRef_value : forall hex l v rest, refNumber hex l = Some (v, rest) ->
  parseStringCharRef (refPrefix hex ++ l) =
    if isChar v then Ret (v, rest)
    else if v <=? 1114111 then Fail (Plain "invalid XML char value") else Fail (Plain "hex CharRef out of range").
Proof.
  intros hex l v rest Hn. unfold parseStringCharRef. destruct hex; cbn [refPrefix refNumber] in *.
  - cbn. change (120 =? 120) with true. cbv iota.
    rewrite (scrLoop_number accHex 16 hex_val accHex_ok ltac:(lia) hex_pos l false 0 v rest) by (auto; lia).
    destruct (Z.leb_spec v 1114111).
    + destruct (isChar v); auto.
    + destruct (isChar v) eqn:Hv; [apply isChar_range in Hv; lia|auto].
  - destruct l as [|c l]; [discriminate|].
    change (has_prefix (s_ "&#") (s_ "&#" ++ c :: l)) with true. change (skipn 2 (s_ "&#" ++ c :: l)) with (c :: l).
    cbn [negb]. cbv zeta iota. assert (Hc : c =? 120 = false).
    { apply Z.eqb_neq. intros ->. discriminate Hn. }
    rewrite Hc.
    rewrite (scrLoop_number accDec 10 dec_val accDec_ok ltac:(lia) dec_pos (c :: l) false 0 v rest) by (auto; lia).
    destruct (Z.leb_spec v 1114111).
    + destruct (isChar v); auto.
    + destruct (isChar v) eqn:Hv; [apply isChar_range in Hv; lia|auto].
Qed.

(* ---- attrNormalizeSpace ---- *)
(* specification: the words of a string, separated by spaces (32) *)
Fixpoint words_acc (cur : str) (s : str) : list str :=
  match s with
  | [] => match cur with [] => [] | _ => [cur] end
  | c :: t => if c =? 32 then match cur with [] => words_acc [] t | _ => cur :: words_acc [] t end
              else words_acc (cur ++ [c]) t
  end.
Definition words (s : str) : list str := words_acc [] s.
Fixpoint join (ws : list str) : str :=
  match ws with
  | [] => []
  | [w] => w
  | w :: t => w ++ [32] ++ join t
  end.

Lemma words_drop : forall s, words (dropW (fun c => c =? 32) s) = words s.
Proof. induction s as [|c s IH]; simpl; auto. unfold words in *. simpl. destruct (c =? 32) eqn:H; auto. simpl. rewrite H; auto. Qed.

Lemma words_cons : forall w s c, c <> 32 -> words_acc w (c :: s) = words_acc (w ++ [c]) s.
Proof. intros. simpl. destruct (Z.eqb_spec c 32); [contradiction|auto]. Qed.

(* collapse, seen through words: with a pending word w (non-empty) *)
Fixpoint ends_space (s : str) : bool := match s with [] => false | [c] => c =? 32 | _ :: t => ends_space t end.
Lemma join_words_nonempty : forall s w, w <> [] -> exists ws, words_acc w s = ws /\ ws <> [].
Proof.
  induction s as [|c s IH]; intros w Hw; simpl.
  - destruct w; [congruence|]. eexists; split; eauto. discriminate.
  - destruct (c =? 32).
    + destruct w; [congruence|]. eexists; split; eauto. discriminate.
    + apply IH. destruct w; discriminate.
Qed.
Lemma join_cons : forall w t, t <> [] -> join (w :: t) = w ++ [32] ++ join t.
Proof. intros w [|x t] H; [congruence|reflexivity]. Qed.

Lemma join_words_app : forall s w v, v <> [] -> join (words_acc (w ++ v) s) = w ++ join (words_acc v s).
Proof.
  induction s as [|c s IH]; intros w v Hv; simpl.
  - destruct v; [congruence|]. destruct (w ++ z :: v) eqn:Hx; [destruct w; discriminate|]. rewrite <- Hx; reflexivity.
  - destruct (c =? 32).
    + destruct v as [|x v]; [congruence|]. destruct (w ++ x :: v) eqn:Hx; [destruct w; discriminate|]. rewrite <- Hx.
      destruct (words_acc [] s); simpl; rewrite <- ?app_assoc; reflexivity.
    + rewrite <- app_assoc. apply IH. destruct v; discriminate.
Qed.
Lemma collapse_words : forall s w, w <> [] ->
  w ++ collapse s = join (words_acc w s) ++ (if ends_space s then [32] else []).
Proof.
  induction s as [|c s IH]; intros w Hw.
  - simpl. destruct w; [congruence|]. rewrite !app_nil_r. reflexivity.
  - destruct (Z.eqb_spec c 32) as [->|Hc].
    + cbn [collapse words_acc]. change (32 =? 32) with true. cbv iota.
      destruct w as [|w0 w]; [congruence|]. set (w' := w0 :: w) in *.
      destruct s as [|d s].
      * reflexivity.
      * specialize (IH w' Hw). destruct (Z.eqb_spec d 32) as [->|Hd].
        -- rewrite IH. cbn [words_acc]. change (32 =? 32) with true. cbv iota. reflexivity.
        -- assert (Hwd : words_acc [] (d :: s) = words_acc [d] s) by (rewrite words_cons by auto; reflexivity).
           rewrite Hwd. destruct (join_words_nonempty s [d] ltac:(discriminate)) as (ws & Hws & Hne).
           rewrite join_cons by congruence. rewrite <- !app_assoc. f_equal. cbn [app]. f_equal.
           rewrite (words_cons w' s d Hd) in IH. rewrite join_words_app in IH by discriminate.
           rewrite <- app_assoc in IH. apply app_inv_head in IH. exact IH.
    + cbn [collapse]. destruct (Z.eqb_spec c 32); [contradiction|].
      rewrite words_cons by auto. replace (w ++ c :: collapse s) with ((w ++ [c]) ++ collapse s) by (rewrite <- app_assoc; auto).
      rewrite IH by (destruct w; discriminate). f_equal. destruct s; [|reflexivity]. simpl. destruct (Z.eqb_spec c 32); [contradiction|auto].
Qed.
Definition isWord (w : str) : Prop := w <> [] /\ ~ In 32 w.
Lemma words_ok : forall s w, ~ In 32 w -> Forall isWord (words_acc w s).
Proof.
  induction s as [|c s IH]; intros w Hw; simpl.
  - destruct w; constructor; auto. split; auto; discriminate.
  - destruct (Z.eqb_spec c 32).
    + destruct w; [apply IH; auto|]. constructor; [split; auto; discriminate|apply IH; auto].
    + apply IH. intros Hx. apply in_app_iff in Hx as [Hx|[Hx|[]]]; auto.
Qed.
Lemma join_last : forall ws, ws <> [] -> Forall isWord ws -> exists r c, join ws = r ++ [c] /\ c <> 32.
Proof.
  induction ws as [|w ws IH]; intros Hne Hw; [congruence|]. inversion Hw as [|? ? [H1 H2] H3]; subst.
  destruct ws as [|w2 ws].
  - simpl. destruct (exists_last H1) as (r & c & ->). exists r, c; split; auto. intros ->. apply H2, in_app_iff; right; left; auto.
  - rewrite join_cons by discriminate. destruct (IH ltac:(discriminate) H3) as (r & c & -> & Hc).
    exists (w ++ [32] ++ r), c; split; auto. rewrite <- !app_assoc; auto.
Qed.
Lemma words_nil : forall s, words s = [] -> Forall (fun c => c = 32) s.
Proof.
  induction s as [|c s IH]; auto. unfold words in *; simpl. destruct (Z.eqb_spec c 32); [constructor; auto|].
  intros Hx. destruct (join_words_nonempty s [c] ltac:(discriminate)) as (ws & H1 & H2). congruence.
Qed.

Lemma norm_words : forall s, words s <> [] -> attrNormalizeSpace s = Ret (join (words s)).
Proof.
  intros s Hs. unfold attrNormalizeSpace. destruct s as [|c0 s0]; [exfalso; apply Hs; reflexivity|]. set (s := c0 :: s0) in *. clearbody s.
  rewrite <- words_drop in Hs |- *. pose proof (dropW_head (fun c => c =? 32) s) as Hd.
  destruct (dropW (fun c => c =? 32) s) as [|c t]; [exfalso; apply Hs; reflexivity|].
  assert (Hc : c <> 32) by lia.
  replace (collapse (c :: t)) with ([c] ++ collapse t) by (simpl; destruct (Z.eqb_spec c 32); [contradiction|auto]).
  rewrite collapse_words by discriminate.
  unfold words. rewrite words_cons by auto. cbn [app].
  destruct (join_words_nonempty t [c] ltac:(discriminate)) as (ws & Hws & Hne). rewrite Hws.
  assert (Hok : Forall isWord ws). { rewrite <- Hws. apply words_ok. intros [?|[]]; auto. }
  destruct (join_last ws Hne Hok) as (r & x & Hj & Hx). rewrite Hj.
  destruct (ends_space t).
  - rewrite rev_app_distr. simpl. rewrite rev_involutive. auto.
  - rewrite app_nil_r, rev_app_distr. simpl. destruct (Z.eqb_spec x 32); [contradiction|auto].
Qed.
Lemma norm_empty : attrNormalizeSpace [] = Ret []. Proof. reflexivity. Qed.
Lemma norm_blank : forall s, s <> [] -> words s = [] -> attrNormalizeSpace s = Pan.
Proof.
  intros s Hs Hw. apply words_nil in Hw. unfold attrNormalizeSpace. destruct s as [|c s]; [congruence|].
  assert (dropW (fun c => c =? 32) (c :: s) = []) as ->; [|reflexivity]. clear Hs.
  induction Hw; simpl; auto. subst. exact IHHw.
Qed.
Lemma words_acc_word : forall w v s, ~ In 32 v -> words_acc w (v ++ s) = words_acc (w ++ v) s.
Proof.
  intros w v; revert w; induction v as [|c v IH]; intros w s Hv; simpl; [rewrite app_nil_r; auto|].
  destruct (Z.eqb_spec c 32) as [->|]; [exfalso; apply Hv; left; auto|].
  rewrite IH by (intros Hx; apply Hv; right; auto). rewrite <- app_assoc; auto.
Qed.
Lemma words_join : forall ws, Forall isWord ws -> words (join ws) = ws.
Proof.
  induction ws as [|w ws IH]; intros Hw; [reflexivity|]. inversion Hw as [|? ? [H1 H2] H3]; subst.
  destruct ws as [|w2 ws].
  - simpl. unfold words. rewrite <- (app_nil_r w) at 1. rewrite words_acc_word by auto. simpl. destruct w; [congruence|auto].
  - rewrite join_cons by discriminate. unfold words. rewrite words_acc_word by auto. cbn [app words_acc].
    change (32 =? 32) with true. cbv iota. destruct w; [congruence|]. f_equal. apply IH; auto.
Qed.
Lemma norm_idem : forall s v, attrNormalizeSpace s = Ret v -> attrNormalizeSpace v = Ret v.
Proof.
  intros s v Hs. destruct (words s) eqn:Hw.
  - destruct s; [inversion Hs; subst; reflexivity|]. rewrite norm_blank in Hs; [discriminate|discriminate|auto].
  - rewrite norm_words in Hs by congruence. inversion Hs; subst v. clear Hs.
    assert (Hok : Forall isWord (words s)) by (apply words_ok; intros []).
    rewrite norm_words; rewrite words_join by auto; auto. congruence.
Qed.

(* ---- names ---- *)
Section Names.
Variable E : env.

Lemma scanName_app : forall start rest k c run after,
  start c = true -> c <> 32 -> c <> 62 -> c <> 47 -> Forall (fun x => rest x = true) run ->
  (match after with [] => True | x :: _ => rest x = false end) -> peek E after <> 0 ->
  Z.of_nat (List.length (c :: run)) <= MaxNameLength ->
  scanName E start rest k (c :: run ++ after) = (Ret (utf8 (c :: run)), after).
Proof.
  intros start rest k c run after Hs H1 H2 H3 Hr Ha H0 Hl. unfold scanName. cbn [peek hd tl].
  replace ((c =? 32) || (c =? 62) || (c =? 47) || negb (start c)) with false by (rewrite Hs; lia).
  rewrite takeW_app, dropW_app by auto. destruct (Z.eqb_spec (peek E after) 0); [contradiction|].
  destruct (Z.ltb_spec MaxNameLength (Z.of_nat (Datatypes.S (List.length run)))); [simpl in Hl; lia|].
  f_equal. apply (advance_app E (c :: run) after).
Qed.
Lemma scanName_inv : forall start rest k l v l', scanName E start rest k l = (Ret v, l') -> env_ok E ->
  (forall c, start c = true -> c <> RuneError /\ c <> 0) ->
  exists c run after, l = c :: run ++ after /\ v = utf8 (c :: run) /\ start c = true /\ Forall (fun x => rest x = true) run /\
    (match after with [] => True | x :: _ => rest x = false end) /\ (peek E after <> 0 -> l' = after) /\
    (forall t, after = 0 :: t -> l' = t).
Proof.
  intros start rest k l v l' H He Hst. unfold scanName in H.
  destruct ((peek E l =? 32) || (peek E l =? 62) || (peek E l =? 47) || negb (start (peek E l))) eqn:Hc; [discriminate|].
  assert (Hs : start (peek E l) = true) by (destruct (start (peek E l)); auto; lia).
  destruct l as [|c t]; [destruct (Hst _ Hs) as [A B]; destruct (ok_eofr E He); simpl in *; congruence|].
  cbn [peek hd tl] in *.
  set (run := takeW rest t) in *. set (after := dropW rest t) in *.
  assert (Ht : t = run ++ after) by (symmetry; apply takeW_dropW).
  exists c, run, after. destruct (MaxNameLength <? _); [discriminate|]. inversion H as [[Hv Hl]]. subst v l'. clear H.
  split; [congruence|]. split; auto. split; auto. split; [apply takeW_all|]. split; [apply dropW_head|].
  split.
  - intros H0. destruct (Z.eqb_spec (peek E after) 0); [contradiction|]. rewrite Ht at 1. apply (advance_app E (c :: run) after).
  - intros u Hu. rewrite Hu at 1. cbn [peek hd]. rewrite Z.eqb_refl. rewrite Ht, Hu.
    replace (c :: run ++ 0 :: u) with ((c :: run ++ [0]) ++ u) by (simpl; rewrite <- app_assoc; auto).
    replace (Datatypes.S (Datatypes.S (List.length run))) with (List.length (c :: run ++ [0])) by (simpl; rewrite app_length; simpl; lia).
    apply advance_app.
Qed.
End Names.

(* ---- line ends ---- *)
(* specification: CR LF read as LF *)
Inductive lf : list Z -> list Z -> Prop :=
| lf_nil : lf [] []
| lf_crlf a b : lf a b -> lf (13 :: 10 :: a) (10 :: b)
| lf_cons c a b : (c = 13 -> hd 0 a <> 10) -> lf a b -> lf (c :: a) (c :: b).

Lemma crlf_lf : forall s, lf s (crlf s).
Proof.
  assert (H : forall n s, (List.length s <= n)%nat -> lf s (crlf s)).
  { induction n; intros s Hs; [destruct s; [constructor|simpl in Hs; lia]|].
    destruct s as [|a [|b t]]; simpl.
    - constructor.
    - constructor; [simpl; lia|constructor].
    - destruct ((a =? 13) && (b =? 10)) eqn:Hab.
      + assert (a = 13 /\ b = 10) as [-> ->] by lia. constructor. apply IHn. simpl in Hs; lia.
      + constructor; [simpl; lia|]. apply (IHn (b :: t)). simpl in *; lia. }
  intros s; apply (H (List.length s)); auto.
Qed.
Lemma lf_fun : forall a b, lf a b -> forall c, lf a c -> b = c.
Proof.
  intros a b H; induction H; intros x Hx; inversion Hx; subst.
  - auto.
  - f_equal; auto.
  - exfalso. match goal with H : 13 = 13 -> _ |- _ => apply (H eq_refl) end. reflexivity.
  - exfalso. match goal with H : 13 = 13 -> _ |- _ => apply (H eq_refl) end. reflexivity.
  - f_equal; auto.
Qed.
Lemma crlf_id : forall s, ~ In 13 s -> crlf s = s.
Proof.
  intros s Hs. apply (lf_fun s). apply crlf_lf. induction s as [|c s IH]; constructor.
  - intros ->. exfalso; apply Hs; left; auto.
  - apply IH. intros Hx; apply Hs; right; auto.
Qed.
Lemma encode_cases : forall c, (encode_rune c = [c] /\ 0 <= c < 128) \/ Forall (fun b => 128 <= b) (encode_rune c).
Proof.
  intros c. destruct (valid_rune c) eqn:Hv.
  - destruct (Z.ltb_spec c 128).
    + left. unfold valid_rune in Hv. split; [apply encode_ascii|]; lia.
    + right. apply Forall_forall. intros b Hb. destruct (Z.ltb_spec b 128); [|lia].
      destruct (encode_high c b Hb ltac:(auto)) as [H1 H2]. subst; lia.
  - right. unfold encode_rune. rewrite Hv. repeat constructor; lia.
Qed.
Lemma lf_high : forall h a b, Forall (fun x => 128 <= x) h -> lf a b -> lf (h ++ a) (h ++ b).
Proof. intros h a b Hh Hab. induction Hh; simpl; auto. constructor; auto. intros ->; lia. Qed.
Lemma utf8_hd10 : forall a, hd 0 (utf8 a) = 10 -> hd 0 a = 10.
Proof.
  intros [|c a]; simpl; auto. intros H. destruct (encode_cases c) as [[He Hc]|Hh].
  - rewrite He in H; simpl in H; auto.
  - pose proof (encode_nonempty c). destruct (encode_rune c); [congruence|]. simpl in H. inversion Hh; lia.
Qed.
Lemma lf_utf8 : forall a b, lf a b -> lf (utf8 a) (utf8 b).
Proof.
  intros a b H; induction H; simpl.
  - constructor.
  - change (lf (13 :: 10 :: utf8 a) (10 :: utf8 b)). constructor; auto.
  - destruct (encode_cases c) as [[He Hc]|Hh].
    + rewrite He. simpl. constructor; auto. intros ->. intros Hx. apply H; auto. apply utf8_hd10; auto.
    + apply lf_high; auto.
Qed.
Lemma crlf_utf8 : forall s, crlf (utf8 s) = utf8 (crlf s).
Proof. intros s. apply (lf_fun (utf8 s)); [apply crlf_lf|apply lf_utf8, crlf_lf]. Qed.

(* ---- comments ---- *)
(* specification: the body of a comment, [15]: no "--" inside and no "-" at its end *)
Fixpoint comment_body (s : list Z) : Prop :=
  match s with
  | [] => True
  | 45 :: t => match t with [] => False | d :: _ => d <> 45 /\ comment_body t end
  | _ :: t => comment_body t
  end.

Lemma comment_body_cons : forall c t, comment_body (c :: t) <->
  (c = 45 -> match t with [] => False | d :: _ => d <> 45 end) /\ comment_body t.
Proof.
  intros c t. destruct (Z.eq_dec c 45) as [->|Hc].
  - simpl. destruct t; simpl; tauto.
  - assert (comment_body (c :: t) = comment_body t).
    { simpl. destruct c as [|p|p]; auto. do 6 (destruct p; auto). exfalso; auto. }
    rewrite H. tauto.
Qed.

Lemma commentLoop_step : forall q r c t, commentLoop q r (c :: t) =
  if negb (isChar c) || ((q =? 45) && (r =? 45) && (c =? 62)) then Some []
  else if (q =? 45) && (r =? 45) then None
  else match commentLoop r c t with Some cs => Some (c :: cs) | None => None end.
Proof. reflexivity. Qed.
(* reading q r cs "-->": the loop stops exactly there *)
Lemma commentLoop_ok : forall body q r rest,
  (match body with
   | [] => q = 45 /\ r = 45
   | [x] => q = x /\ r = 45
   | x :: y :: _ => q = x /\ r = y
   end) -> comment_body body -> Forall (fun c => isChar c = true) body ->
  commentLoop q r (skipn 2 (body ++ [45; 45; 62]) ++ rest) = Some (skipn 2 (body ++ [45; 45])).
Proof.
  induction body as [|x body IH]; intros q r rest Hqr Hb Hc.
  - destruct Hqr as [-> ->]. reflexivity.
  - apply comment_body_cons in Hb as [Hx Hb]. inversion Hc as [|? ? Hcx Hcb]; subst.
    destruct body as [|y body].
    + destruct Hqr as [-> ->]. cbn [app skipn]. rewrite commentLoop_step.
      assert (x <> 45) by (intros ->; apply Hx; auto).
      replace (negb (isChar 45)) with false by reflexivity.
      replace ((x =? 45) && (45 =? 45)) with false by lia. cbn [andb orb].
      reflexivity.
    + destruct Hqr as [-> ->]. cbn [app skipn].
      assert (Hxy : (x =? 45) && (y =? 45) = false).
      { destruct (Z.eqb_spec x 45) as [->|]; auto. specialize (Hx eq_refl). simpl in Hx. lia. }
      destruct body as [|z body].
      * cbn [app]. rewrite commentLoop_step. replace (negb (isChar 45)) with false by reflexivity.
        rewrite Hxy. cbn [orb andb]. specialize (IH y 45 rest (conj eq_refl eq_refl) Hb Hcb). cbn [app skipn] in IH.
        rewrite IH. reflexivity.
      * inversion Hcb as [|? ? Hcy Hcb']; subst. inversion Hcb' as [|? ? Hcz Hcb'']; subst.
        cbn [app]. rewrite commentLoop_step. rewrite Hcz, Hxy. cbn [negb orb andb].
        specialize (IH y z rest (conj eq_refl eq_refl) Hb Hcb). cbn [app skipn] in IH.
        rewrite IH. reflexivity.
Qed.

Lemma scanComment_ok : forall E body rest, comment_body body -> Forall (fun c => isChar c = true) body ->
  scanComment E (s_ "<!--" ++ body ++ s_ "-->" ++ rest) = (Ret (utf8 (crlf body)), rest).
Proof.
  intros E body rest Hb Hc. unfold scanComment.
  rewrite (pbind_eq _ _ _ _ _ true (body ++ s_ "-->" ++ rest)) by apply pconsume_app. cbn [negb].
  change (s_ "-->") with [45; 45; 62].
  set (q := peekn E 1 (body ++ [45; 45; 62] ++ rest)). set (r := peekn E 2 (body ++ [45; 45; 62] ++ rest)).
  assert (Hqr : match body with [] => q = 45 /\ r = 45 | [x] => q = x /\ r = 45 | x :: y :: _ => q = x /\ r = y end).
  { subst q r. destruct body as [|x [|y body]]; split; reflexivity. }
  assert (Hq : isChar q = true). { destruct body as [|x [|y body]]; destruct Hqr as [-> _]; [reflexivity| |]; inversion Hc; auto. }
  assert (Hr : isChar r = true). { destruct body as [|x [|y body]]; destruct Hqr as [_ ->]; [reflexivity|reflexivity|]. inversion Hc as [|? ? ? Hc']; inversion Hc'; auto. }
  cbv zeta. rewrite Hq, Hr. cbn [negb].
  assert (Htl : tl (tl (body ++ [45; 45; 62] ++ rest)) = skipn 2 (body ++ [45; 45; 62]) ++ rest).
  { destruct body as [|x [|y body]]; simpl; auto. rewrite <- app_assoc; auto. }
  rewrite Htl, commentLoop_ok by auto.
  assert (Hall : q :: r :: skipn 2 (body ++ [45; 45]) = body ++ [45; 45]).
  { destruct body as [|x [|y body]]; destruct Hqr as [-> ->]; reflexivity. }
  rewrite Hall, utf8_app. change (utf8 [45; 45]) with [45; 45].
  rewrite app_length. cbn [List.length].
  replace (List.length (utf8 body) + 2 - 2)%nat with (List.length (utf8 body)) by lia.
  rewrite firstn_app, firstn_all, Nat.sub_diag. cbn [firstn]. rewrite app_nil_r, crlf_utf8. f_equal.
  replace (List.length (skipn 2 (body ++ [45%Z; 45%Z])) + 3)%nat with (List.length (body ++ [45; 45; 62])).
  2:{ rewrite skipn_length, !app_length. simpl. lia. }
  change (body ++ [45; 45; 62] ++ rest) with (body ++ [45; 45; 62] ++ rest). rewrite app_assoc. apply advance_app.
Qed.

(* a comment in which "--" is not followed by ">" is rejected *)
Lemma commentLoop_bad : forall body q r c rest,
  (match body with
   | [] => q = 45 /\ r = 45
   | [x] => q = x /\ r = 45
   | x :: y :: _ => q = x /\ r = y
   end) -> comment_body body -> Forall (fun c => isChar c = true) body -> isChar c = true -> c <> 62 ->
  commentLoop q r (skipn 2 (body ++ [45; 45; c]) ++ rest) = None.
Proof.
  induction body as [|x body IH]; intros q r c rest Hqr Hb Hc Hcc Hc62.
  - destruct Hqr as [-> ->]. cbn [app skipn]. rewrite commentLoop_step. rewrite Hcc. change (45 =? 45) with true.
    destruct (Z.eqb_spec c 62); [contradiction|]. reflexivity.
  - apply comment_body_cons in Hb as [Hx Hb]. inversion Hc as [|? ? Hcx Hcb]; subst.
    destruct body as [|y body].
    + destruct Hqr as [-> ->]. cbn [app skipn].
      assert (x <> 45) by (intros ->; apply Hx; auto).
      replace ([45; c] ++ rest) with (45 :: c :: rest) by reflexivity. rewrite commentLoop_step.
      replace (negb (isChar 45)) with false by reflexivity.
      replace ((x =? 45) && (45 =? 45)) with false by lia. cbn [andb orb].
      rewrite commentLoop_step, Hcc. change (45 =? 45) with true. destruct (Z.eqb_spec c 62); [contradiction|]. reflexivity.
    + destruct Hqr as [-> ->]. cbn [app skipn].
      assert (Hxy : (x =? 45) && (y =? 45) = false).
      { destruct (Z.eqb_spec x 45) as [->|]; auto. specialize (Hx eq_refl). simpl in Hx. lia. }
      destruct body as [|z body].
      * specialize (IH y 45 c rest (conj eq_refl eq_refl) Hb Hcb Hcc Hc62). cbn [app skipn] in IH |- *.
        rewrite commentLoop_step. replace (negb (isChar 45)) with false by reflexivity.
        rewrite Hxy. cbn [orb andb]. rewrite IH. reflexivity.
      * inversion Hcb as [|? ? Hcy Hcb']; subst. inversion Hcb' as [|? ? Hcz Hcb'']; subst.
        specialize (IH y z c rest (conj eq_refl eq_refl) Hb Hcb Hcc Hc62). cbn [app skipn] in IH |- *.
        rewrite commentLoop_step. rewrite Hcz, Hxy. cbn [negb orb andb]. rewrite IH. reflexivity.
Qed.
Lemma scanComment_bad : forall E body c rest, comment_body body -> Forall (fun c => isChar c = true) body ->
  isChar c = true -> c <> 62 ->
  fst (scanComment E (s_ "<!--" ++ body ++ s_ "--" ++ c :: rest)) = Fail (PErr (Plain "ErrHyphenInComment")).
Proof.
  intros E body c rest Hb Hc Hcc Hc62. unfold scanComment.
  rewrite (pbind_eq _ _ _ _ _ true (body ++ s_ "--" ++ c :: rest)) by apply pconsume_app. cbn [negb].
  change (s_ "--") with [45; 45].
  set (q := peekn E 1 (body ++ [45; 45] ++ c :: rest)). set (r := peekn E 2 (body ++ [45; 45] ++ c :: rest)).
  assert (Hqr : match body with [] => q = 45 /\ r = 45 | [x] => q = x /\ r = 45 | x :: y :: _ => q = x /\ r = y end).
  { subst q r. destruct body as [|x [|y body]]; split; reflexivity. }
  assert (Hq : isChar q = true). { destruct body as [|x [|y body]]; destruct Hqr as [-> _]; [reflexivity| |]; inversion Hc; auto. }
  assert (Hr : isChar r = true). { destruct body as [|x [|y body]]; destruct Hqr as [_ ->]; [reflexivity|reflexivity|]. inversion Hc as [|? ? ? Hc']; inversion Hc'; auto. }
  cbv zeta. rewrite Hq, Hr. cbn [negb].
  assert (Htl : tl (tl (body ++ [45; 45] ++ c :: rest)) = skipn 2 (body ++ [45; 45; c]) ++ rest).
  { destruct body as [|x [|y body]]; simpl; auto. rewrite <- app_assoc; auto. }
  rewrite Htl, commentLoop_bad by auto. reflexivity.
Qed.

(* ---- processing instructions ---- *)
(* specification: data of a processing instruction, [16]: no "?>" inside *)
Definition pi_data (s : list Z) : Prop := ~ exists a b, s = a ++ [63; 62] ++ b.

Lemma piLoop_ok : forall E data rest, pi_data data -> Forall (fun c => isChar c = true) data ->
  piLoop E (data ++ [63; 62] ++ rest) = data.
Proof.
  intros E data rest Hp Hc. induction data as [|c data IH].
  - reflexivity.
  - inversion Hc as [|? ? H1 H2]; subst. cbn [app piLoop]. rewrite H1.
    assert (c <> 0) by (apply isChar_range in H1; lia).
    replace (c =? 0) with false by lia. cbn [negb orb].
    assert (Hq : (c =? 63) && (peek E (data ++ 63 :: 62 :: rest) =? 62) = false).
    { destruct (Z.eqb_spec c 63) as [->|]; auto. destruct data as [|d data]; [reflexivity|]. cbn.
      destruct (Z.eqb_spec d 62) as [->|]; auto. exfalso. apply Hp. exists [], data; reflexivity. }
    rewrite Hq. cbn [orb]. f_equal. apply IH; auto. intros (a & b & ->). apply Hp. exists (c :: a), b; reflexivity.
Qed.
Lemma piLoop_prefix : forall E l, exists t, l = piLoop E l ++ t /\ Forall (fun c => isChar c = true) (piLoop E l) /\
  (has_prefix (s_ "?>") t = true -> pi_data (piLoop E l)).
Proof.
  intros E; induction l as [|c l IH]; [exists []; split; [reflexivity|split; [constructor|intros H; discriminate H]]|].
  cbn [piLoop]. destruct ((c =? 0) || ((c =? 63) && (peek E l =? 62)) || negb (isChar c)) eqn:Hc.
  - exists (c :: l). split; [reflexivity|split; [constructor|]]. intros _ (a & b & Hab). destruct a; discriminate.
  - destruct IH as (t & H1 & H2 & H3). exists t. split; [simpl; congruence|].
    assert (isChar c = true) by (destruct (isChar c); auto; lia). split; [constructor; auto|].
    intros Ht. specialize (H3 Ht). intros (a & b & Hab). destruct a as [|a0 a].
    + exfalso. assert (Hh : c = 63 /\ piLoop E l = 62 :: b) by (inversion Hab; auto).
      destruct Hh as [-> Hh]. rewrite Hh in H1. rewrite H1 in Hc. cbn in Hc. discriminate.
    + apply H3. exists a, b. inversion Hab; auto.
Qed.

Definition startName (E : env) (c : Z) : bool := isLetter E c || (c =? 95) || (c =? 58).
Definition isNameOf (E : env) (n : list Z) : Prop :=
  match n with [] => False | c :: run => startName E c = true /\ Forall (fun x => nameRest E x = true) run end /\
  Z.of_nat (List.length n) <= MaxNameLength.

Lemma startName_not : forall E c, env_ok E -> startName E c = true -> c <> 32 /\ c <> 62 /\ c <> 47 /\ c <> 0 /\ c <> RuneError.
Proof.
  intros E c He Hs. unfold startName in Hs.
  assert (Hl : forall x, 0 <= x < 128 -> isLetter E x = isAZ x) by apply (ok_letter E He).
  repeat split; intros ->; unfold isAZ in Hl.
  - rewrite Hl in Hs by lia; lia.
  - rewrite Hl in Hs by lia; lia.
  - rewrite Hl in Hs by lia; lia.
  - rewrite Hl in Hs by lia; lia.
  - rewrite (ok_letter_err E He) in Hs. discriminate.
Qed.
Lemma parseName_app : forall E n after, env_ok E -> isNameOf E n ->
  (match after with [] => eofr E <> 0 | x :: _ => nameRest E x = false /\ x <> 0 end) ->
  parseName E (n ++ after) = (Ret (utf8 n), after).
Proof.
  intros E n after He [Hn Hl] Ha. destruct n as [|c run]; [destruct Hn|]. destruct Hn as [Hs Hr].
  destruct (startName_not E c He Hs) as (A1 & A2 & A3 & A4 & A5).
  unfold parseName. simpl app. apply scanName_app; auto.
  - destruct after; [auto|tauto].
  - destruct after; simpl; tauto.
Qed.
Lemma parseName_inv : forall E l v l', env_ok E -> parseName E l = (Ret v, l') ->
  exists n after, l = n ++ after /\ v = utf8 n /\
    match n with [] => False | c :: run => startName E c = true /\ Forall (fun x => nameRest E x = true) run end /\
    (match after with [] => True | x :: _ => nameRest E x = false end) /\
    (peek E after <> 0 -> l' = after) /\ (forall t, after = 0 :: t -> l' = t).
Proof.
  intros E l v l' He H. unfold parseName in H.
  apply scanName_inv in H; auto.
  - destruct H as (c & run & after & H1 & H2 & H3 & H4 & H5 & H6 & H7).
    exists (c :: run), after. repeat split; auto.
  - intros c Hc. destruct (startName_not E c He Hc) as (A1 & A2 & A3 & A4 & A5). auto.
Qed.

Lemma skipBlanks_app : forall b l, Forall (fun c => isBlankCh c = true) b -> (match l with [] => True | c :: _ => isBlankCh c = false end) ->
  skipBlanks (b ++ l) = (Ret (negb (Nat.eqb (List.length b) 0)), l).
Proof. intros b l Hb Hl. unfold skipBlanks. rewrite takeW_app, dropW_app by auto. reflexivity. Qed.

Lemma nameRest_63 : forall E, env_ok E -> nameRest E 63 = false.
Proof. intros E He. unfold nameRest. rewrite (ok_letter E He), (ok_digit E He) by lia. reflexivity. Qed.
Lemma nameRest_blank : forall E c, env_ok E -> isBlankCh c = true -> nameRest E c = false /\ c <> 0.
Proof.
  intros E c He Hc. unfold isBlankCh in Hc. assert (0 <= c < 128) by lia. split; [|lia].
  unfold nameRest. rewrite (ok_letter E He), (ok_digit E He) by lia. unfold isAZ, isD. lia.
Qed.

(* the target of a processing instruction that the parser accepts *)
Definition pi_target (n : list Z) : Prop :=
  utf8 n <> s_ "xml" /\ (utf8 n = s_ "xml-stylesheet" \/ utf8 n = s_ "xml-model" \/ ~ In 58 (utf8 n)).
Lemma mem_byte_false : forall b s, mem_byte b s = false <-> ~ In b s.
Proof.
  intros b s; unfold mem_byte; induction s as [|c s IH]; simpl; [split; auto; tauto|].
  destruct (Z.eqb_spec c b) as [->|Hc]; simpl; [split; [discriminate|tauto]|]. rewrite IH. split; [intros H [?|?]; auto|tauto].
Qed.
Lemma parsePITarget_app : forall E n after, env_ok E -> isNameOf E n -> pi_target n ->
  (match after with [] => eofr E <> 0 | x :: _ => nameRest E x = false /\ x <> 0 end) ->
  parsePITarget E (n ++ after) = (Ret (utf8 n), after).
Proof.
  intros E n after He Hn [Ht1 Ht2] Ha. unfold parsePITarget.
  rewrite (pbind_eq _ _ _ _ _ (utf8 n) after).
  2:{ unfold pwrap. rewrite parseName_app by auto. reflexivity. }
  destruct (str_eqb_spec (utf8 n) (s_ "xml")); [contradiction|].
  destruct (str_eqb_spec (utf8 n) (s_ "xml-stylesheet")); [reflexivity|].
  destruct (str_eqb_spec (utf8 n) (s_ "xml-model")); [reflexivity|].
  cbn [orb]. replace (mem_byte 58 (utf8 n)) with false; [reflexivity|]. symmetry. apply mem_byte_false. tauto.
Qed.
Lemma scanPI_ok : forall E n b data rest, env_ok E -> isNameOf E n -> pi_target n ->
  b <> [] -> Forall (fun c => isBlankCh c = true) b -> isBlankCh (hd 0 data) = false ->
  pi_data data -> Forall (fun c => isChar c = true) data ->
  scanPI E (s_ "<?" ++ n ++ b ++ data ++ s_ "?>" ++ rest) = (Ret (utf8 n, utf8 data), rest).
Proof.
  intros E n b data rest He Hn Ht Hb1 Hb2 Hd1 Hd2 Hd3. unfold scanPI.
  rewrite (pbind_eq _ _ _ _ _ true (n ++ b ++ data ++ s_ "?>" ++ rest)) by apply pconsume_app. cbn [negb].
  destruct b as [|b0 b]; [congruence|]. inversion Hb2 as [|? ? Hb0 Hb3]; subst.
  destruct (nameRest_blank E b0 He Hb0) as [Hr0 Hn0].
  rewrite (pbind_eq _ _ _ _ _ (utf8 n) ((b0 :: b) ++ data ++ s_ "?>" ++ rest)).
  2:{ unfold pwrap. rewrite parsePITarget_app; auto. simpl. auto. }
  rewrite (pbind_eq _ _ _ _ _ false ((b0 :: b) ++ data ++ s_ "?>" ++ rest)).
  2:{ apply pconsume_not. simpl. destruct (Z.eqb_spec 63 b0) as [<-|]; [discriminate|reflexivity]. }
  rewrite (pbind_eq _ _ _ _ _ b0 ((b0 :: b) ++ data ++ s_ "?>" ++ rest)) by reflexivity. rewrite Hb0. cbn [negb].
  rewrite (pbind_eq _ _ _ _ _ true (data ++ s_ "?>" ++ rest)).
  2:{ rewrite skipBlanks_app; auto. destruct data; [reflexivity|exact Hd1]. }
  change (s_ "?>") with [63; 62].
  rewrite (pbind_eq _ _ _ _ _ data ([63; 62] ++ rest)).
  2:{ rewrite piLoop_ok by auto. rewrite advance_app. reflexivity. }
  rewrite (pbind_eq _ _ _ _ _ true rest) by apply pconsume_app. reflexivity.
Qed.
Lemma scanPI_ok_empty : forall E n rest, env_ok E -> isNameOf E n -> pi_target n ->
  scanPI E (s_ "<?" ++ n ++ s_ "?>" ++ rest) = (Ret (utf8 n, []), rest).
Proof.
  intros E n rest He Hn Ht. unfold scanPI.
  rewrite (pbind_eq _ _ _ _ _ true (n ++ s_ "?>" ++ rest)) by apply pconsume_app. cbn [negb].
  rewrite (pbind_eq _ _ _ _ _ (utf8 n) (s_ "?>" ++ rest)).
  2:{ unfold pwrap. rewrite parsePITarget_app; auto. simpl. split; [apply nameRest_63; auto|discriminate]. }
  rewrite (pbind_eq _ _ _ _ _ true rest) by apply pconsume_app. reflexivity.
Qed.
Lemma scanPI_xml : forall E after, env_ok E ->
  (match after with [] => eofr E <> 0 | x :: _ => nameRest E x = false /\ x <> 0 end) ->
  exists e l', scanPI E (s_ "<?xml" ++ after) = (Fail e, l').
Proof.
  intros E after He Ha. unfold scanPI.
  change (s_ "<?xml" ++ after) with (s_ "<?" ++ s_ "xml" ++ after).
  rewrite (pbind_eq _ _ _ _ _ true (s_ "xml" ++ after)) by apply pconsume_app. cbn [negb].
  assert (Hn : isNameOf E (s_ "xml")).
  { assert (Hl : forall x, 0 <= x < 128 -> isLetter E x = isAZ x) by apply (ok_letter E He).
    split; [|vm_compute; discriminate]. cbn. split; [unfold startName; rewrite Hl by lia; reflexivity|].
    repeat constructor; unfold nameRest; rewrite Hl by lia; reflexivity. }
  erewrite pbind_fail; [eauto|]. unfold pwrap, parsePITarget.
  rewrite (pbind_eq _ _ _ _ _ (utf8 (s_ "xml")) after). 2:{ unfold pwrap. rewrite parseName_app by auto. reflexivity. }
  reflexivity.
Qed.
(* whatever is accepted has the form of a processing instruction; a NUL after
   the target is the one character that may be swallowed *)
Lemma scanPI_inv : forall E l t d l', env_ok E -> eofr E <> 0 -> scanPI E l = (Ret (t, d), l') ->
  exists n nul b data, l = s_ "<?" ++ n ++ nul ++ b ++ data ++ s_ "?>" ++ l' /\ t = utf8 n /\ d = utf8 data /\
    (nul = [] \/ nul = [0]) /\ Forall (fun c => isBlankCh c = true) b /\
    (b = [] -> data = []) /\ pi_data data /\ Forall (fun c => isChar c = true) data /\ t <> s_ "xml".
Proof.
  intros E l t d l' He Heof H. unfold scanPI in H. unfold pbind at 1 in H.
  unfold pconsume at 1 in H. destruct (has_prefix (s_ "<?") l) eqn:Hp; [|discriminate].
  apply has_prefix_true in Hp as [l1 ->]. cbn [negb] in H.
  rewrite skipn_app, skipn_all, Nat.sub_diag in H. cbn [app skipn] in H.
  unfold pbind at 1 in H. unfold pwrap at 1 in H.
  destruct (parsePITarget E l1) as [[t1|e| |] l2] eqn:Ht; try discriminate.
  assert (Hname : exists n nul, l1 = n ++ nul ++ l2 /\ t1 = utf8 n /\ (nul = [] \/ nul = [0]) /\ t1 <> s_ "xml").
  { unfold parsePITarget in Ht. unfold pbind, pwrap in Ht.
    destruct (parseName E l1) as [[nm|e| |] l2'] eqn:Hn; try discriminate.
    assert (Hl2 : l2' = l2 /\ nm = t1 /\ nm <> s_ "xml").
    { destruct (str_eqb_spec nm (s_ "xml")); [discriminate Ht|].
      destruct (str_eqb nm (s_ "xml-stylesheet") || str_eqb nm (s_ "xml-model")); [inversion Ht; subst; auto|].
      destruct (mem_byte 58 nm); [discriminate Ht|inversion Ht; subst; auto]. }
    destruct Hl2 as (-> & -> & Hx).
    destruct (parseName_inv E l1 t1 l2 He Hn) as (n & after & G1 & G2 & G3 & G4 & G5 & G6).
    destruct (Z.eq_dec (peek E after) 0) as [Hz|Hz].
    - destruct after as [|x after]; [simpl in Hz; contradiction|]. simpl in Hz. subst x.
      exists n, [0]. rewrite (G6 after eq_refl). repeat split; auto.
    - exists n, []. rewrite (G5 Hz). repeat split; auto. }
  destruct Hname as (n & nul & -> & -> & Hnul & Hx).
  unfold pbind at 1 in H. unfold pconsume at 1 in H.
  destruct (has_prefix (s_ "?>") l2) eqn:Hq.
  - apply has_prefix_true in Hq as [l3 ->]. rewrite skipn_app, skipn_all, Nat.sub_diag in H. cbn [app skipn] in H.
    inversion H; subst. exists n, nul, [], []. simpl. repeat (split; [auto; fail|]). split; [intros (a & b & Hab); destruct a; discriminate|auto].
  - unfold pbind at 1 in H. unfold ppeek in H. destruct (isBlankCh (peek E l2)) eqn:Hb; [|discriminate]. cbn [negb] in H.
    unfold pbind at 1 in H. unfold skipBlanks in H.
    set (b := takeW isBlankCh l2) in *. set (l3 := dropW isBlankCh l2) in *.
    assert (Hl2 : l2 = b ++ l3) by (symmetry; apply takeW_dropW).
    unfold pbind at 1 in H. destruct (piLoop_prefix E l3) as (l4 & P1 & P2 & P3). set (data := piLoop E l3) in *.
    unfold pbind at 1 in H. unfold pconsume in H. rewrite P1 in H at 1. rewrite advance_app in H.
    destruct (has_prefix (s_ "?>") l4) eqn:Hq4; [|cbn [negb] in H; discriminate]. cbn [negb] in H.
    pose proof Hq4 as Hq4'. apply has_prefix_true in Hq4' as [l5 ->].
    replace (skipn (List.length (s_ "?>")) (advance E (List.length data) l3)) with l5 in H.
    2:{ rewrite P1, advance_app, skipn_app, skipn_all, Nat.sub_diag; reflexivity. }
    inversion H; subst t d l'. exists n, nul, b, data. rewrite Hl2, P1. rewrite <- ?app_assoc. repeat split; auto.
    + apply takeW_all.
    + intros Hbn. exfalso. subst b. destruct l2 as [|c l2]; simpl in *; [|rewrite Hb in Hbn; discriminate].
      destruct (ok_eofr E He) as [Q|Q]; rewrite Q in Hb; discriminate.
Qed.
