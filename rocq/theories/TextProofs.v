(* The scanners of Scan.v against the grammar of Grammar.v: character data,
   CDATA sections, comments, processing instructions, names, references. *)
From Verif Require Import Base Utf8 Utf8Proofs Encoding XmlSpec EscapeProofs Scan ScanProofs LexProofs Parser Grammar.

(* ---- the two vocabularies ---- *)
Lemma blank_is : forall c, blank c = isBlankCh c. Proof. intros c; unfold blank, isBlankCh. lia. Qed.
Lemma legal_is : forall c, legal c = isChar c. Proof. intros c; rewrite isChar_spec; reflexivity. Qed.
Lemma legals_is : forall s, legals s <-> Forall (fun c => isChar c = true) s.
Proof. intros s; unfold legals. split; apply Forall_impl; intros c; rewrite legal_is; auto. Qed.
Lemma blanks_is : forall s, blanks s <-> Forall (fun c => isBlankCh c = true) s.
Proof. intros s; unfold blanks. split; apply Forall_impl; intros c; rewrite blank_is; auto. Qed.
Lemma eol_lf : forall a b, eol a b -> lf a b.
Proof. intros a b H; induction H; constructor; auto. Qed.
Lemma eol_crlf_eq : forall a b, eol a b -> b = crlf a.
Proof. intros a b H. apply (lf_fun a); [apply eol_lf; auto|apply crlf_lf]. Qed.
Lemma lf_eol : forall a b, lf a b -> eol a b.
Proof. intros a b H; induction H; constructor; auto. Qed.
Lemma eol_total : forall a, eol a (crlf a). Proof. intros; apply lf_eol, crlf_lf. Qed.
Lemma legal_not0 : forall c, legal c = true -> c <> 0. Proof. intros c H ->. discriminate. Qed.
Lemma legal_valid : forall c, legal c = true -> valid_rune c = true.
Proof. intros c H. rewrite legal_is in H. apply isChar_valid; auto. Qed.
Lemma contains_cons : forall p c s, ~ contains p (c :: s) -> ~ contains p s.
Proof. intros p c s H (a & b & ->). apply H. exists (c :: a), b. reflexivity. Qed.
Lemma contains_head : forall p b, contains p (p ++ b). Proof. intros p b. exists [], b. reflexivity. Qed.

Section S.
Variable E : env.
Hypothesis OK : env_ok E.

Lemma eof_not : forall c, 0 < c < 60000 -> eofr E <> c.
Proof. intros c Hc He. destruct (ok_eofr E OK); unfold RuneError in *; lia. Qed.

(* ---- character data ---- *)
Lemma charData_end3 : forall t s c, starts_markup s -> ~ contains (s_ "]]>") (c :: t) ->
  (c =? 93) && (peekn E 1 (t ++ s) =? 93) && (peekn E 2 (t ++ s) =? 62) = false.
Proof.
  intros t s c Hs Hc. destruct (Z.eqb_spec c 93) as [->|]; auto. unfold peekn. cbn [pred].
  pose proof (eof_not 93 ltac:(lia)) as E93. pose proof (eof_not 62 ltac:(lia)) as E62.
  assert (Hh : nth 0 s (eofr E) <> 93).
  { destruct Hs as [->|[H|H]]; simpl; auto; destruct s; simpl in *; try lia; auto. }
  destruct t as [|x t]; cbn [app].
  - destruct (Z.eqb_spec (nth 0 s (eofr E)) 93); [contradiction|reflexivity].
  - cbn [nth]. destruct (Z.eqb_spec x 93) as [->|]; auto. cbn [andb].
    destruct t as [|y t]; cbn [app nth].
    + destruct Hs as [->|[H|H]]; simpl.
      * destruct (Z.eqb_spec (eofr E) 62); auto; contradiction.
      * destruct s; simpl in *; subst; try lia; reflexivity.
      * destruct s; simpl in *; subst; try lia; reflexivity.
    + destruct (Z.eqb_spec y 62) as [->|]; auto. exfalso. apply Hc. apply (contains_head (s_ "]]>") t).
Qed.
Lemma charDataLoop_text : forall t s, legals t -> ~ In 60 t -> ~ In 38 t -> ~ contains (s_ "]]>") t -> starts_markup s ->
  charDataLoop E false (t ++ s) = CDOk t.
Proof.
  induction t as [|c t IH]; intros s Hl H1 H2 H3 Hs.
  - cbn [app]. destruct Hs as [->|[H|H]]; cbn [charDataLoop].
    + destruct (eofr E =? 0); auto.
    + destruct s as [|x s]; simpl in H; [lia|]. subst. reflexivity.
    + destruct s as [|x s]; simpl in H; [lia|]. subst. reflexivity.
  - inversion Hl as [|? ? Hc Hl']; subst. cbn [app charDataLoop].
    pose proof (legal_not0 c Hc) as Hc0. destruct (Z.eqb_spec c 0); [contradiction|].
    rewrite legal_is in Hc. rewrite Hc.
    assert (c <> 60 /\ c <> 38) as [A B] by (split; intros ->; [apply H1|apply H2]; left; auto).
    replace ((c =? 60) || (c =? 38) || negb true) with false by lia. cbn [negb andb].
    rewrite charData_end3 by auto. rewrite IH; auto.
    + intros Hi; apply H1; right; auto.
    + intros Hi; apply H2; right; auto.
    + apply contains_cons with c; auto.
Qed.
Lemma scanCharData_text : forall t s, text_run t -> starts_markup s ->
  scanCharData E false (t ++ s) = (Ret (utf8 (crlf t)), s).
Proof.
  intros t s (Hne & Hl & H1 & H2 & H3) Hs. unfold scanCharData. rewrite charDataLoop_text by auto.
  destruct t as [|c t]; [congruence|]. rewrite crlf_utf8, advance_app. reflexivity.
Qed.
(* what is delivered as text is a maximal run of text *)
Lemma charDataLoop_inv : forall l cs, charDataLoop E false l = CDOk cs ->
  exists s, l = cs ++ s /\ legals cs /\ ~ In 60 cs /\ ~ In 38 cs /\ ~ contains (s_ "]]>") cs /\
    match s with [] => True | c :: _ => c = 60 \/ c = 38 \/ legal c = false end.
Proof.
  induction l as [|c l IH]; intros cs H.
  - cbn [charDataLoop] in H. exists []. assert (cs = []) by (destruct (eofr E =? 0); congruence). subst.
    repeat split; auto. constructor. intros (a & b & Hab). destruct a; discriminate.
  - cbn [charDataLoop] in H.
    assert (Hnil : cs = [] -> (c = 60 \/ c = 38 \/ legal c = false) ->
       exists s, c :: l = cs ++ s /\ legals cs /\ ~ In 60 cs /\ ~ In 38 cs /\ ~ contains (s_ "]]>") cs /\
       match s with [] => True | x :: _ => x = 60 \/ x = 38 \/ legal x = false end).
    { intros -> Hc. exists (c :: l). repeat split; auto. constructor. intros (a & b & Hab). destruct a; discriminate. }
    destruct (Z.eqb_spec c 0) as [->|Hc0]; [apply Hnil; [congruence|right; right; reflexivity]|].
    cbn [negb andb] in H.
    destruct (Z.eqb_spec c 60) as [->|H60]; [apply Hnil; [cbn in H; congruence|auto]|].
    destruct (Z.eqb_spec c 38) as [->|H38]; [apply Hnil; [cbn in H; congruence|auto]|].
    rewrite legal_is in Hnil. cbn [orb] in H.
    destruct (isChar c) eqn:Hch; [|apply Hnil; [cbn in H; congruence|auto]]. cbn [negb] in H.
    destruct ((c =? 93) && (peekn E 1 l =? 93) && (peekn E 2 l =? 62)) eqn:H3; [discriminate|].
    destruct (charDataLoop E false l) as [cs'| |] eqn:Hl; try discriminate. cbn [cdcons] in H. inversion H; subst cs. clear H.
    destruct (IH cs' eq_refl) as (s & -> & A1 & A2 & A3 & A4 & A5). exists s.
    split; [reflexivity|]. split; [constructor; [rewrite legal_is; auto|auto]|].
    split; [intros [?|?]; [congruence|auto]|]. split; [intros [?|?]; [congruence|auto]|]. split; [|auto].
    intros (a & b & Hab). destruct a as [|a0 a].
    + cbn in Hab. inversion Hab; subst. cbn in H3. unfold peekn in H3. cbn in H3. discriminate.
    + inversion Hab; subst. apply A4. exists a, b; auto.
Qed.
Lemma scanCharData_inv : forall l t l', scanCharData E false l = (Ret t, l') ->
  exists cs, l = cs ++ l' /\ text_run cs /\ t = utf8 (crlf cs) /\
    match l' with [] => True | c :: _ => c = 60 \/ c = 38 \/ legal c = false end.
Proof.
  intros l t l' H. unfold scanCharData in H. destruct (charDataLoop E false l) as [cs| |] eqn:Hl; try discriminate.
  destruct (charDataLoop_inv l cs Hl) as (s & -> & A1 & A2 & A3 & A4 & A5).
  destruct cs as [|c cs]; [discriminate|]. rewrite advance_app, crlf_utf8 in H. inversion H; subst.
  exists (c :: cs). repeat split; auto. discriminate.
Qed.
(* the literal "]]>" is refused in text *)
Lemma charDataLoop_bad : forall t s, legals t -> ~ In 60 t -> ~ In 38 t -> ~ contains (s_ "]]>") t ->
  charDataLoop E false (t ++ s_ "]]>" ++ s) = CDMisplaced.
Proof.
  induction t as [|c t IH]; intros s Hl H1 H2 H3; [reflexivity|].
  inversion Hl as [|? ? Hc Hl']; subst. cbn [app charDataLoop].
  pose proof (legal_not0 c Hc) as Hc0. destruct (Z.eqb_spec c 0); [contradiction|].
  rewrite legal_is in Hc. rewrite Hc.
  assert (c <> 60 /\ c <> 38) as [A B] by (split; intros ->; [apply H1|apply H2]; left; auto).
  replace ((c =? 60) || (c =? 38) || negb true) with false by lia. cbn [negb andb].
  destruct ((c =? 93) && (peekn E 1 (t ++ s_ "]]>" ++ s) =? 93) && (peekn E 2 (t ++ s_ "]]>" ++ s) =? 62)); [reflexivity|].
  rewrite IH; auto.
  - intros Hi; apply H1; right; auto.
  - intros Hi; apply H2; right; auto.
  - apply contains_cons with c; auto.
Qed.

(* ---- CDATA sections ---- *)
Lemma charDataLoop_cdata : forall t s, ~ In 0 t -> ~ contains (s_ "]]>") t ->
  charDataLoop E true (t ++ s_ "]]>" ++ s) = CDOk t.
Proof.
  induction t as [|c t IH]; intros s H0 H3; [reflexivity|].
  cbn [app charDataLoop]. assert (c <> 0) by (intros ->; apply H0; left; auto).
  destruct (Z.eqb_spec c 0); [contradiction|]. cbn [negb andb].
  assert (Hq : (c =? 93) && (peekn E 1 (t ++ s_ "]]>" ++ s) =? 93) && (peekn E 2 (t ++ s_ "]]>" ++ s) =? 62) = false).
  { destruct (Z.eqb_spec c 93) as [->|]; auto. destruct t as [|x t]; [reflexivity|]. unfold peekn. cbn [pred app nth].
    destruct (Z.eqb_spec x 93) as [->|]; auto. destruct t as [|y t]; [reflexivity|]. cbn [app nth].
    destruct (Z.eqb_spec y 62) as [->|]; auto. exfalso. apply H3. apply (contains_head (s_ "]]>") t). }
  rewrite Hq. rewrite IH; auto.
  - intros Hi; apply H0; right; auto.
  - apply contains_cons with c; auto.
Qed.
Lemma scanCharData_cdata : forall t s, t <> [] -> ~ In 0 t -> ~ contains (s_ "]]>") t ->
  scanCharData E true (t ++ s_ "]]>" ++ s) = (Ret (utf8 (crlf t)), s_ "]]>" ++ s).
Proof.
  intros t s Hne H0 H3. unfold scanCharData. rewrite charDataLoop_cdata by auto.
  destruct t as [|c t]; [congruence|]. rewrite crlf_utf8, advance_app. reflexivity.
Qed.
Lemma cdata_no0 : forall t, legals t -> ~ In 0 t.
Proof. intros t H Hi. unfold legals in H. rewrite Forall_forall in H. apply H in Hi. discriminate. Qed.

(* ---- comments and processing instructions ---- *)
Lemma comment_text_body : forall s, comment_text s -> comment_body s.
Proof.
  intros s (_ & H1 & H2). induction s as [|c s IH]; [exact I|]. apply comment_body_cons. split.
  - intros ->. destruct s as [|d s]; [destruct H2; [discriminate|simpl in *; congruence]|].
    intros ->. apply H1. apply (contains_head (s_ "--") s).
  - apply IH; [apply contains_cons with c; auto|]. destruct s as [|d s]; [auto|]. right.
    destruct H2 as [|H2]; [discriminate|]. exact H2.
Qed.
Lemma scanComment_text : forall b s, comment_text b -> scanComment E (s_ "<!--" ++ b ++ s_ "-->" ++ s) = (Ret (utf8 (crlf b)), s).
Proof. intros b s Hb. apply scanComment_ok; [apply comment_text_body; auto|]. apply legals_is. apply Hb. Qed.

Lemma name_start_facts : forall c, name_start E c = true -> c <> 32 /\ c <> 62 /\ c <> 47 /\ c <> 58 /\ c <> 60 /\ c <> 63 /\ c <> 33.
Proof.
  intros c H. unfold name_start in H.
  assert (Hl : forall x, 0 <= x < 128 -> isLetter E x = isAZ x) by apply (ok_letter E OK).
  repeat split; intros ->; rewrite Hl in H by lia; discriminate.
Qed.
Lemma name_part_facts : forall c, name_part E c = true -> c <> 58 /\ c <> 61 /\ c <> 62 /\ c <> 47 /\ blank c = false /\ c <> 63.
Proof.
  intros c H. unfold name_part in H.
  assert (Hl : forall x, 0 <= x < 128 -> isLetter E x = isAZ x) by apply (ok_letter E OK).
  assert (Hd : forall x, 0 <= x < 128 -> isDigit E x = isD x) by apply (ok_digit E OK).
  assert (Hn : forall x, 0 <= x < 128 -> isAZ x || isD x || (x =? 95) || (x =? 45) || (x =? 46) = false -> c <> x).
  { intros x Hx Hf ->. rewrite Hl, Hd in H by auto. congruence. }
  repeat split; try (apply Hn; [lia|reflexivity]).
  pose proof (Hn 32 ltac:(lia) eq_refl). pose proof (Hn 9 ltac:(lia) eq_refl).
  pose proof (Hn 10 ltac:(lia) eq_refl). pose proof (Hn 13 ltac:(lia) eq_refl). unfold blank. lia.
Qed.
Lemma ncname_nameOf : forall n, ncname E n -> isNameOf E n.
Proof.
  intros n (Hn & Hl & Hlen). split; [|exact Hlen]. destruct n as [|c r]; [exact Hn|]. destruct Hn as [Hs Hp].
  split; [unfold startName, name_start in *; destruct (isLetter E c); cbn [orb] in *; lia|]. inversion Hl as [|? ? _ Hlr]; subst.
  unfold legals in Hlr. rewrite Forall_forall in *. intros x Hx.
  pose proof (Hp x Hx) as Hxp. pose proof (legal_not0 x (Hlr x Hx)). destruct (name_part_facts x Hxp) as (A & B & C & D & F & G).
  unfold nameRest, name_part, blank in *. destruct (isLetter E x), (isDigit E x); cbn [orb] in *; lia.
Qed.
Lemma ncname_no58 : forall n, ncname E n -> ~ In 58 n.
Proof.
  intros n (Hn & _) Hi. destruct n as [|c r]; [exact Hn|]. destruct Hn as [Hs Hp]. destruct Hi as [->|Hi].
  - apply name_start_facts in Hs. tauto.
  - rewrite Forall_forall in Hp. apply Hp in Hi. apply name_part_facts in Hi. tauto.
Qed.
Lemma utf8_In_ascii : forall b n, 0 <= b < 128 -> In b (utf8 n) -> In b n.
Proof.
  intros b n Hb Hi. unfold utf8 in Hi. apply in_flat_map in Hi as (r & Hr & Hi). apply encode_high in Hi as [_ ->]; auto; lia.
Qed.
Lemma pitarget_ok : forall t, pitarget E t -> isNameOf E t /\ pi_target t.
Proof.
  intros t [Hn Hx]. split; [apply ncname_nameOf; auto|]. split.
  - intros He. apply Hx. destruct Hn as (_ & Hl & _). apply utf8_inj.
    + unfold legals in Hl. rewrite Forall_forall in *. intros c Hc. apply legal_valid; auto.
    + repeat constructor.
    + rewrite He. reflexivity.
  - right; right. intros Hi. apply utf8_In_ascii in Hi; [|lia]. apply ncname_no58 in Hi; auto.
Qed.
Lemma scanPI_grammar0 : forall t s, pitarget E t -> scanPI E (s_ "<?" ++ t ++ s_ "?>" ++ s) = (Ret (utf8 t, []), s).
Proof. intros t s Ht. destruct (pitarget_ok t Ht). apply scanPI_ok_empty; auto. Qed.
Lemma scanPI_grammar : forall t b x s, pitarget E t -> b <> [] -> blanks b -> pidata x ->
  scanPI E (s_ "<?" ++ t ++ b ++ x ++ s_ "?>" ++ s) = (Ret (utf8 t, utf8 x), s).
Proof.
  intros t b x s Ht Hb1 Hb2 (Hx1 & Hx2 & Hx3). destruct (pitarget_ok t Ht).
  apply scanPI_ok; auto; [apply blanks_is; auto| |apply legals_is; auto].
  rewrite <- blank_is; auto.
Qed.

(* ---- names ---- *)
Definition name_end (s : list Z) : Prop :=
  match s with [] => False | c :: _ => name_part E c = false /\ c <> 0 end.
Lemma parseNCName_app : forall n s, ncname E n -> name_end s -> parseNCName E (n ++ s) = (Ret (utf8 n), s).
Proof.
  intros n s (Hn & Hl & Hlen) Hs. destruct n as [|c r]; [destruct Hn|]. destruct Hn as [Hc Hr].
  destruct (name_start_facts c Hc) as (A1 & A2 & A3 & A4 & _). inversion Hl as [|? ? Hlc Hlr]; subst.
  destruct s as [|x s]; [destruct Hs|]. destruct Hs as [Hs1 Hs2].
  unfold parseNCName. cbn [app]. apply scanName_app; auto.
  - unfold isNameStartChar, name_start in *. destruct (isLetter E c); cbn [orb] in *; lia.
  - unfold legals in Hlr. rewrite Forall_forall in *. intros y Hy.
    pose proof (Hr y Hy). pose proof (legal_not0 y (Hlr y Hy)). unfold ncnameRest, name_part in *. destruct (isLetter E y), (isDigit E y); cbn [orb] in *; lia.
  - unfold ncnameRest, name_part in *. destruct (isLetter E x), (isDigit E x); cbn [orb] in *; lia.
Qed.
Lemma parseQName_app : forall p l s, qnamed E p l -> name_end s -> hd 0 s <> 58 ->
  parseQName E (qname p l ++ s) = (Ret (utf8 l, utf8 p), s).
Proof.
  intros p l s [Hp Hl] Hs H58. unfold parseQName. destruct Hp as [->|Hp].
  - cbn [qname]. rewrite (pbind_eq _ _ _ _ _ (inr (utf8 l)) s).
    2:{ unfold ptry. rewrite parseNCName_app by auto. reflexivity. }
    rewrite (pbind_eq _ _ _ _ _ (peek E s) s) by reflexivity.
    destruct s as [|x s]; [destruct Hs|]. cbn [peek hd] in *. destruct (Z.eqb_spec x 58); [contradiction|]. reflexivity.
  - assert (Hq : qname p l = p ++ [58] ++ l). { destruct p; [destruct Hp as [[] _]|reflexivity]. }
    rewrite Hq, <- !app_assoc. rewrite (pbind_eq _ _ _ _ _ (inr (utf8 p)) ([58] ++ l ++ s)).
    2:{ unfold ptry. rewrite parseNCName_app; auto. cbn. split; [|lia]. unfold name_part.
        rewrite (ok_letter E OK), (ok_digit E OK) by lia. reflexivity. }
    rewrite (pbind_eq _ _ _ _ _ 58 ([58] ++ l ++ s)) by reflexivity. cbn [negb]. rewrite Z.eqb_refl. cbn [negb].
    rewrite (pbind_eq _ _ _ _ _ tt (l ++ s)). 2:{ unfold padvance. cbn [app]. rewrite advance_1. reflexivity. }
    rewrite (pbind_eq _ _ _ _ _ (inr (utf8 l)) s). 2:{ unfold ptry. rewrite parseNCName_app by auto. reflexivity. }
    reflexivity.
Qed.
Lemma name_end_ascii : forall c s, 0 < c < 128 -> isAZ c || isD c || (c =? 95) || (c =? 45) || (c =? 46) = false -> name_end (c :: s).
Proof. intros c s Hc H. split; [|lia]. unfold name_part. rewrite (ok_letter E OK), (ok_digit E OK) by lia. exact H. Qed.
Lemma name_end_blank : forall c s, blank c = true -> name_end (c :: s).
Proof. intros c s H. unfold blank in H. apply name_end_ascii; unfold isAZ, isD; lia. Qed.

End S.
