(* The XML declaration, the text around the root and whole documents. *)
From Verif Require Import Base Utf8 Utf8Proofs Encoding XmlSpec EscapeProofs Scan ScanProofs LexProofs Parser Grammar TextProofs Complete.

Section D.
Variable E : env.
Hypothesis OK : env_ok E.

(* ---- the XML declaration ---- *)
Lemma skipBlankBytes_app : forall b c l, blanks b -> blank c = false -> c <> 37 ->
  skipBlankBytes E (b ++ c :: l) = (Ret (negb (Nat.eqb (List.length b) 0)), c :: l).
Proof.
  intros b c l Hb Hc H37. unfold skipBlankBytes.
  assert (Hc' : isBlankCh c = false) by (rewrite <- blank_is; auto).
  rewrite takeW_app, dropW_app by (auto; apply blanks_is; auto). cbn [bpeek hd].
  destruct (Nat.eqb (List.length b) 0); [reflexivity|]. destruct (Z.eqb_spec c 37); [contradiction|]. reflexivity.
Qed.
Lemma quoted_app : forall q v v' cb r, q = 34 \/ q = 39 -> cb (v ++ q :: r) = (Ret v', q :: r) ->
  parseQuotedTextBytes E cb (q :: v ++ q :: r) = (Ret v', r).
Proof.
  intros q v v' cb r Hq Hcb. unfold parseQuotedTextBytes.
  erewrite pbind_eq by reflexivity. cbn [bpeek hd]. replace (negb ((q =? 34) || (q =? 39))) with false by lia.
  erewrite pbind_eq. 2:{ unfold padvance. rewrite advance_1. reflexivity. }
  erewrite pbind_eq by exact Hcb. erewrite pbind_eq by reflexivity. cbn [bpeek hd]. rewrite Z.eqb_refl. cbn [negb].
  erewrite pbind_eq. 2:{ unfold padvance. rewrite advance_1. reflexivity. } reflexivity.
Qed.
Lemma named_app : forall name b e1 e2 q v v' cb r, blanks b -> blanks e1 -> blanks e2 -> q = 34 \/ q = 39 ->
  (match name with [] => False | c :: _ => blank c = false /\ c <> 37 end) ->
  cb (v ++ q :: r) = (Ret v', q :: r) ->
  parseNamedAttributeBytes E name cb (b ++ name ++ e1 ++ [61] ++ e2 ++ [q] ++ v ++ [q] ++ r) = (Ret v', r).
Proof.
  intros name b e1 e2 q v v' cb r Hb He1 He2 Hq Hn Hcb. unfold parseNamedAttributeBytes.
  destruct name as [|c name]; [destruct Hn|]. destruct Hn as [N1 N2].
  erewrite pbind_eq by (apply (skipBlankBytes_app b c); auto).
  change (c :: name ++ e1 ++ [61] ++ e2 ++ [q] ++ v ++ [q] ++ r) with ((c :: name) ++ e1 ++ [61] ++ e2 ++ [q] ++ v ++ [q] ++ r).
  erewrite pbind_eq by (apply (pconsume_app (c :: name))). cbn [negb].
  erewrite pbind_eq by (apply (skipBlankBytes_app e1 61); auto; lia).
  erewrite pbind_eq by reflexivity. cbn [bpeek hd]. rewrite Z.eqb_refl. cbn [negb].
  erewrite pbind_eq. 2:{ unfold padvance. cbn [app]. rewrite advance_1. reflexivity. }
  erewrite pbind_eq. 2:{ cbn [app]. apply (skipBlankBytes_app e2 q); auto; [destruct Hq; subst; reflexivity|lia]. }
  apply quoted_app; auto.
Qed.
Lemma version_app : forall v q r, version_num v -> q = 34 \/ q = 39 -> parseVersionNum E (v ++ q :: r) = (Ret v, q :: r).
Proof.
  intros v q r (a & b & t & -> & Ha & Hb & Ht) Hq. unfold parseVersionNum, bpeek, bpeekn. cbn [hd nth pred app].
  replace (isD a) with true by (symmetry; exact Ha). replace (isD b) with true by (symmetry; exact Hb). cbn [negb]. rewrite Z.eqb_refl. cbn [negb].
  cbn [skipn firstn]. rewrite takeW_app; [|exact Ht|destruct Hq; subst; reflexivity].
  change (a :: 46 :: b :: t ++ q :: r) with ((a :: 46 :: b :: t) ++ q :: r).
  replace (3 + List.length t)%nat with (List.length (a :: 46 :: b :: t)) by reflexivity. rewrite advance_app. reflexivity.
Qed.
Lemma encname_app : forall v q r, enc_name v -> q = 34 \/ q = 39 -> parseEncodingName E (v ++ q :: r) = (Ret v, q :: r).
Proof.
  intros v q r (a & t & -> & Ha & Ht) Hq. unfold parseEncodingName, bpeek. cbn [hd app tl].
  replace (isAZ a) with true by (unfold isAZ, alpha in *; lia). cbn [negb].
  assert (Ht' : Forall (fun c => encRest c = true) t).
  { eapply Forall_impl; [|exact Ht]. intros c Hc. cbn beta in Hc. unfold encRest, isAZ, isD, alpha, digit10 in *. lia. }
  rewrite takeW_app, dropW_app by (auto; destruct Hq; subst; reflexivity). cbn [hd]. replace (q =? 0) with false by lia.
  change (a :: t ++ q :: r) with ((a :: t) ++ q :: r). replace (Datatypes.S (List.length t)) with (List.length (a :: t)) by reflexivity.
  rewrite advance_app. reflexivity.
Qed.
Lemma standalone_app : forall (b : bool) q r, parseStandaloneDeclValue (s_ (if b then "yes" else "no") ++ q :: r) =
  (Ret (s_ (if b then "yes" else "no")), q :: r).
Proof. intros [] q r; reflexivity. Qed.

Lemma close_app : forall r, pbclose E (s_ "?>" ++ r) = (Ret true, r).
Proof. intros r. unfold pbclose. cbn [s_ app]. cbn. change (63 :: 62 :: r) with ([63; 62] ++ r). apply (f_equal (fun x => (Ret true, x))). apply (advance_app E [63; 62] r). Qed.
Lemma close_blank : forall c r, blank c = true -> pbclose E (c :: r) = (Ret false, c :: r).
Proof. intros c r Hc. unfold pbclose, bpeek. cbn [hd]. unfold blank in Hc. replace (c =? 63) with false by lia. reflexivity. Qed.

Definition sa_code (sa : option bool) : Z := match sa with None => StandaloneImplicitNo | Some true => StandaloneExplicitYes | Some false => StandaloneExplicitNo end.

Lemma pseudo_head : forall name v s, pseudo name v s -> exists c t, s = c :: t /\ blank c = true.
Proof. intros name v s Hp. destruct Hp as [b e1 e2 q Hb1 Hb2]. destruct b as [|c b]; [congruence|]. inversion Hb2; subst. eexists c, _. split; [reflexivity|auto]. Qed.

Lemma standalone_pseudo : forall sa s r, pseudo "standalone" (s_ (if sa : bool then "yes" else "no")) s ->
  parseStandaloneDecl E (s ++ r) = (Ret (sa_code (Some sa)), r).
Proof.
  intros sa s r Hp. destruct Hp as [b e1 e2 q Hb1 Hb2 He1 He2 Hq]. unfold parseStandaloneDecl. rewrite <- !app_assoc.
  erewrite pbind_eq by (apply named_app; [auto|auto|auto|auto|split; [reflexivity|discriminate]|apply standalone_app]).
  destruct sa; reflexivity.
Qed.
(* the standalone pseudo-attribute after the blanks before it have been read *)
Lemma standalone_trimmed : forall sa b e1 e2 q r, blanks b -> blanks e1 -> blanks e2 -> q = 34 \/ q = 39 ->
  parseStandaloneDecl E (s_ "standalone" ++ e1 ++ [61] ++ e2 ++ [q] ++ s_ (if sa : bool then "yes" else "no") ++ [q] ++ r) = (Ret (sa_code (Some sa)), r).
Proof.
  intros sa b e1 e2 q r Hb He1 He2 Hq. unfold parseStandaloneDecl.
  erewrite pbind_eq by (apply (named_app (s_ "standalone") []); [constructor|auto|auto|auto|split; [reflexivity|discriminate]|apply standalone_app]).
  destruct sa; reflexivity.
Qed.

Theorem xmldecl_ok : forall h v enc sa r, xml_decl h v enc sa ->
  parseXMLDecl E (h ++ r) = (Ret {| xd_version := v; xd_encoding := match enc with Some n => n | None => [] end; xd_standalone := sa_code sa |}, r).
Proof.
  intros h v enc sa r Hd. destruct Hd as [v sv enc se sa ss Hv Hsv Hse Hss].
  unfold parseXMLDecl. rewrite <- !app_assoc. erewrite pbind_eq by apply pconsume_app. cbn [negb].
  destruct Hsv as [b e1 e2 q Hb1 Hb2 He1 He2 Hq]. rewrite <- !app_assoc.
  erewrite pbind_eq. 2:{ change (s_ "version" ++ e1 ++ [61] ++ e2 ++ [q] ++ v ++ [q] ++ se ++ ss ++ s_ "?>" ++ r) with
      (118 :: s_ "ersion" ++ e1 ++ [61] ++ e2 ++ [q] ++ v ++ [q] ++ se ++ ss ++ s_ "?>" ++ r). apply skipBlankBytes_app; auto; discriminate. }
  replace (negb (negb (Nat.eqb (List.length b) 0))) with false by (destruct b; [congruence|reflexivity]).
  erewrite pbind_eq.
  2:{ unfold pwrap.
      change (118 :: s_ "ersion" ++ e1 ++ [61] ++ e2 ++ [q] ++ v ++ [q] ++ se ++ ss ++ s_ "?>" ++ r) with
        ([] ++ s_ "version" ++ e1 ++ [61] ++ e2 ++ [q] ++ v ++ [q] ++ se ++ ss ++ s_ "?>" ++ r).
      rewrite (named_app (s_ "version") [] e1 e2 q v v); auto; [constructor|split; [reflexivity|discriminate]|].
      apply version_app; auto. }
  erewrite pbind_eq by reflexivity.
  destruct enc as [n|]; [destruct Hse as [Hn Hse]|subst se].
  - destruct (pseudo_head _ _ _ Hse) as (c & t & Hs & Hc).
    assert (Hbp : isBlankCh (bpeek E (se ++ ss ++ s_ "?>" ++ r)) = true) by (rewrite Hs; cbn [app bpeek hd]; rewrite <- blank_is; exact Hc).
    rewrite Hbp. cbn [negb].
    erewrite pbind_eq.
    2:{ unfold ptry. destruct Hse as [b' e1' e2' q' B1 B2 B3 B4 B5]. rewrite <- !app_assoc.
        rewrite (named_app (s_ "encoding") b' e1' e2' q' n n); auto; [split; [reflexivity|discriminate]|apply encname_app; auto]. }
    cbv beta iota. destruct sa as [sa|].
    + destruct (pseudo_head _ _ _ Hss) as (c' & t' & Hs' & Hc').
      erewrite pbind_eq. 2:{ rewrite Hs'. cbn [app]. apply close_blank; auto. }
      cbv iota. change (c' :: t' ++ s_ "?>" ++ r) with ((c' :: t') ++ s_ "?>" ++ r). rewrite <- Hs'.
      erewrite pbind_eq by (apply standalone_pseudo; eauto). erewrite pbind_eq by apply close_app. reflexivity.
    + subst ss. cbn [app]. erewrite pbind_eq by apply close_app. reflexivity.
  - cbn [app]. destruct sa as [sa|].
    + destruct (pseudo_head _ _ _ Hss) as (c' & t' & Hs' & Hc').
      assert (Hbp : isBlankCh (bpeek E (ss ++ s_ "?>" ++ r)) = true) by (rewrite Hs'; cbn [app bpeek hd]; rewrite <- blank_is; exact Hc').
      rewrite Hbp. cbn [negb].
      destruct Hss as [b' e1' e2' q' B1 B2 B3 B4 B5]. rewrite <- !app_assoc.
      erewrite pbind_eq.
      2:{ unfold ptry, parseNamedAttributeBytes. erewrite pbind_eq.
          2:{ change (s_ "standalone" ++ e1' ++ [61] ++ e2' ++ [q'] ++ s_ (if sa then "yes" else "no") ++ [q'] ++ s_ "?>" ++ r) with
              (115 :: s_ "tandalone" ++ e1' ++ [61] ++ e2' ++ [q'] ++ s_ (if sa then "yes" else "no") ++ [q'] ++ s_ "?>" ++ r).
              apply skipBlankBytes_app; auto; discriminate. }
          erewrite pbind_eq by (apply pconsume_not; reflexivity). cbn [negb]. reflexivity. }
      cbn [ctx_error]. cbv beta iota.
      change (115 :: s_ "tandalone" ++ e1' ++ [61] ++ e2' ++ [q'] ++ s_ (if sa then "yes" else "no") ++ [q'] ++ s_ "?>" ++ r) with
        (s_ "standalone" ++ e1' ++ [61] ++ e2' ++ [q'] ++ s_ (if sa then "yes" else "no") ++ [q'] ++ s_ "?>" ++ r).
      erewrite pbind_eq by (apply (standalone_trimmed sa []); auto; constructor). erewrite pbind_eq by apply close_app. reflexivity.
    + subst ss. cbn [app]. change (bpeek E (s_ "?>" ++ r)) with 63. cbn [negb isBlankCh]. change (negb (isBlankCh 63)) with true. cbv iota.
      erewrite pbind_eq by apply close_app. reflexivity.
Qed.

(* ---- every character of a document is legal ---- *)
Lemma legals_app : forall a b, legals a -> legals b -> legals (a ++ b).
Proof. intros; apply Forall_app; auto. Qed.
Lemma blanks_legal : forall b, blanks b -> legals b.
Proof.
  intros b Hb. eapply Forall_impl; [|exact Hb]. cbn beta. intros c Hc. unfold blank in Hc.
  assert (c = 32 \/ c = 9 \/ c = 10 \/ c = 13) as Hcc by lia. destruct Hcc as [->|[->|[->| ->]]]; reflexivity.
Qed.
Lemma ncname_legal : forall n, ncname E n -> legals n. Proof. intros n Hn. apply Hn. Qed.
Lemma qname_legal : forall p l, qnamed E p l -> legals (qname p l).
Proof.
  intros p l [Hp Hl]. destruct p as [|c p]; [apply ncname_legal; auto|]. destruct Hp as [Hp|Hp]; [discriminate|].
  unfold qname. apply legals_app; [apply ncname_legal; auto|]. constructor; [reflexivity|apply ncname_legal; auto].
Qed.
Lemma reference_legal : forall t x s, reference t = Some (x, s) -> exists p, t = p ++ s /\ legals p.
Proof.
  intros t x s Hr. destruct (reference_cases t x s Hr) as [(hex & b & Ht & Hnum & _)|(nm & Ht & _ & Hn)].
  - assert (exists q, b = q ++ s /\ legals q) as (q & -> & Hq).
    { assert (G : forall base val, (forall c d, val c = Some d -> legal c = true) -> forall b seen acc, number base val seen acc b = Some (x, s) ->
        exists q, b = q ++ s /\ legals q).
      { intros base val Hval. induction b0 as [|c b0 IH]; intros seen acc Hn; [discriminate|]. cbn [number] in Hn.
        destruct (Z.eqb_spec c 59).
        - destruct seen; inversion Hn; subst; exists [59]; split; auto; repeat constructor.
        - destruct (val c) eqn:Hv; [|discriminate]. destruct (IH _ _ Hn) as (q & -> & Hq). exists (c :: q). split; [auto|].
          constructor; eauto. }
      destruct hex; cbn [refNumber] in Hnum; eapply G; eauto; intros c d Hv; unfold hex_val, dec_val, legal, xml_char in *;
      repeat match type of Hv with context [if ?x then _ else _] => destruct x eqn:?; try discriminate end; lia. }
    destruct hex; cbn [refPrefix] in Ht; inversion Ht; subst; [exists (35 :: 120 :: q)|exists (35 :: q)]; (split; [reflexivity|]);
    repeat (constructor; [reflexivity|]); auto.
  - exists (nm ++ [59]). rewrite <- app_assoc. split; [auto|]. cbn [In] in Hn.
    destruct Hn as [<-|[<-|[<-|[<-|[<-|[]]]]]]; repeat constructor.
Qed.
Lemma attlit_legal : forall q l v, attlit q l v -> legals l.
Proof.
  intros q l v Hl. induction Hl; try (constructor; auto; fail).
  - apply (legals_app [c]); auto. apply blanks_legal. constructor; [auto|constructor].
  - destruct (reference_legal _ _ _ H) as (p & -> & Hp). constructor; [reflexivity|]. apply legals_app; auto.
  - destruct (reference_legal _ _ _ H) as (p & -> & Hp). constructor; [reflexivity|]. apply legals_app; auto.
Qed.
Ltac legal_parts := repeat match goal with
  | |- legals (_ ++ _) => apply legals_app
  | |- legals (s_ _) => repeat constructor
  | |- legals [61] => repeat constructor
  | h : ?q = 34 \/ ?q = 39 |- legals [?q] => destruct h; subst; repeat constructor
  | h : blanks ?b |- legals ?b => apply blanks_legal; exact h
  | h : ncname E ?b |- legals ?b => apply ncname_legal; exact h
  | h : qnamed E ?p ?l |- legals (qname ?p ?l) => apply qname_legal; exact h
  | h : attlit _ ?b _ |- legals ?b => eapply attlit_legal; exact h
  | h : pitarget E ?b |- legals ?b => apply ncname_legal, h
  | h : pidata ?b |- legals ?b => apply h
  | h : comment_text ?b |- legals ?b => apply h
  | h : cdata_text ?b |- legals ?b => apply h
  | h : text_run ?b |- legals ?b => apply h
  | |- legals _ => assumption
  end.
Lemma atts_legal : forall t a d, atts E t a d -> legals t.
Proof.
  intros t a d Ht. induction Ht; legal_parts. apply (qname_legal (s_ "xmlns") l). split; [right; apply xmlns_ncname; auto|auto].
Qed.
Lemma content_legal : forall ns s evs d, content E ns s evs d -> legals s.
Proof.
  apply (content_mut E (fun _ s _ _ => legals s) (fun _ s _ _ => legals s)); intros; legal_parts; try (eapply atts_legal; eauto; fail).
  - constructor.
  - destruct (reference_legal _ _ _ H) as (p & -> & Hp). constructor; [reflexivity|]. apply legals_app; auto.
Qed.
Lemma element_legal : forall ns s evs d, element E ns s evs d -> legals s.
Proof. intros ns s evs d He. destruct He; legal_parts; try (eapply atts_legal; eauto; fail). eapply content_legal; eauto. Qed.
Lemma misc_legal : forall s evs, misc E s evs -> legals s.
Proof. intros s evs Hm. induction Hm; legal_parts; [constructor|]. apply (legals_app [c]); auto. apply blanks_legal. constructor; auto. Qed.

(* ---- around the root ---- *)
Lemma misc_drop : forall s evs, misc E s evs -> exists b t, s = b ++ t /\ blanks b /\ misc E t evs /\
  (t = [] \/ hd 0 t = 60).
Proof.
  intros s evs Hm. induction Hm.
  - exists [], []. repeat split; auto; constructor.
  - destruct IHHm as (b & t & -> & Hb & Ht & Hh). exists (c :: b), t. repeat split; auto. constructor; auto.
  - eexists [], _. split; [reflexivity|]. split; [constructor|]. split; [eapply m_comment; eauto|right; reflexivity].
  - eexists [], _. split; [reflexivity|]. split; [constructor|]. split; [eapply m_pi0; eauto|right; reflexivity].
  - eexists [], _. split; [reflexivity|]. split; [constructor|]. split; [eapply m_pi; eauto|right; reflexivity].
Qed.

Section H.
Variable S : Type.
Variable H : handler S.
Notation pst := (pst S).
Notation HT := (S * list (event * hres))%type.
Notation st := (st S).
Notation deliver := (deliver S H).

Definition nomisc (r : list Z) : Prop :=
  match r with [] => True | c :: _ => blank c = false end /\ has_prefix (s_ "<?") r = false /\ has_prefix (s_ "<!--") r = false.
Lemma nomisc_tag : forall c t, c <> 33 -> c <> 63 -> nomisc (60 :: c :: t).
Proof.
  intros c t C1 C2. split; [reflexivity|]. split; cbn.
  - destruct (Z.eqb_spec 63 c); [congruence|reflexivity].
  - destruct (Z.eqb_spec 33 c); [congruence|reflexivity].
Qed.
Lemma parseMisc_step : forall n l tab nd ht s, parseMisc E S H (Datatypes.S n) (st l tab nd ht s) =
  if done l then (Ret tt, st l tab nd ht s)
  else (if has_prefix (s_ "<?") l then bind S (wrap S (parsePI E S H)) (fun _ => parseMisc E S H n)
         else if has_prefix (s_ "<!--") l then bind S (wrap S (parseComment E S H)) (fun _ => parseMisc E S H n)
         else if isBlankCh (peek E l) then bind S (mskip S) (fun _ => parseMisc E S H n)
         else ret S tt) (st l tab nd ht s).
Proof.
  intros n l tab nd ht s. cbn [parseMisc]. unfold mdone. erewrite bind_ret by reflexivity. cbn [Complete.st inp]. destruct (done l); reflexivity.
Qed.
Lemma parseMisc_stop : forall n r tab nd ht s, nomisc r -> (0 < n)%nat -> parseMisc E S H n (st r tab nd ht s) = (Ret tt, st r tab nd ht s).
Proof.
  intros n r tab nd ht s (Hb & H1 & H2) Hn. destruct n as [|n]; [lia|]. rewrite parseMisc_step.
  destruct r as [|c t]; [reflexivity|]. cbn [done]. rewrite H1, H2. cbn [peek hd]. rewrite <- blank_is, Hb. reflexivity.
Qed.
Lemma misc_st : forall k s evs, (List.length s <= k)%nat -> misc E s evs -> forall n r tab nd ht ht' z, nomisc r ->
  (List.length (s ++ r) < n)%nat -> deliver (the_view S z) ht evs = Some ht' ->
  parseMisc E S H n (st (s ++ r) tab nd ht z) = (Ret tt, st r tab nd ht' z).
Proof.
  induction k as [|k IH]; intros s evs Hk Hm n r tab nd ht ht' z Hr Hn Hd.
  - destruct s; [|cbn in Hk; lia]. inversion Hm as [| |b b' ? ? Hb|t ? ? Ht|t b x ? ? Ht]; subst; try discriminate.
    cbn in Hd. inversion Hd; subst. apply parseMisc_stop; auto; lia.
  - destruct n as [|n]; [lia|]. inversion Hm as [|c s0 ? Hc Hm0|b b' s0 e0 Hb Hb' Hm0|t s0 e0 Ht Hm0|t b x s0 e0 Ht Hb1 Hb2 Hx Hm0]; subst.
    + cbn in Hd. inversion Hd; subst. apply parseMisc_stop; auto; lia.
    + destruct (misc_drop s0 evs Hm0) as (b & t & -> & Hb & Ht & Hh).
      rewrite parseMisc_step. cbn [app done].
      assert (Hp1 : forall p w, has_prefix (60 :: p) (c :: w) = false).
      { intros p w. cbn. unfold blank in Hc. destruct (Z.eqb_spec 60 c); [lia|reflexivity]. }
      change (s_ "<?") with [60; 63]. change (s_ "<!--") with [60; 33; 45; 45]. rewrite !Hp1. cbn [peek hd].
      rewrite <- blank_is, Hc. change (c :: (b ++ t) ++ r) with ((c :: b ++ t) ++ r).
      replace ((c :: b ++ t) ++ r) with ((c :: b) ++ t ++ r) by (cbn [app]; rewrite <- app_assoc; reflexivity).
      erewrite bind_ret. 2:{ apply mskip_st; [constructor; auto|]. destruct t as [|x t]; cbn [app].
        - destruct Hr as [Hr _]. exact Hr.
        - destruct Hh as [Hh|Hh]; [discriminate|]. cbn in Hh. subst x. reflexivity. }
      apply (IH t evs); auto; [cbn in Hk; rewrite app_length in Hk; lia|]. cbn in Hn. rewrite !app_length in *. lia.
    + rewrite deliver_cons in Hd. rewrite (eol_crlf_eq _ _ Hb') in *.
      destruct (deliver (the_view S z) ht [EComment (utf8 (crlf b))]) as [h1|] eqn:Hd1; [|discriminate].
      rewrite !app_length in *. lens. rewrite <- !app_assoc. rewrite parseMisc_step.
      transitivity (parseMisc E S H n (st (s0 ++ r) tab nd h1 z)).
      * refine (bind_ret S _ _ (wrap S (parseComment E S H)) (fun _ => parseMisc E S H n) _ tt _ _).
        apply wrap_ret. apply parseComment_st; auto.
      * apply (IH s0 e0); auto; [lia|]. rewrite app_length; lia.
    + rewrite deliver_cons in Hd.
      destruct (deliver (the_view S z) ht [EProcessingInstruction (utf8 t) []]) as [h1|] eqn:Hd1; [|discriminate].
      rewrite !app_length in *. lens. rewrite <- !app_assoc. rewrite parseMisc_step.
      transitivity (parseMisc E S H n (st (s0 ++ r) tab nd h1 z)).
      * refine (bind_ret S _ _ (wrap S (parsePI E S H)) (fun _ => parseMisc E S H n) _ tt _ _).
        apply wrap_ret. apply parsePI_st0; auto.
      * apply (IH s0 e0); auto; [lia|]. rewrite app_length; lia.
    + rewrite deliver_cons in Hd.
      destruct (deliver (the_view S z) ht [EProcessingInstruction (utf8 t) (utf8 x)]) as [h1|] eqn:Hd1; [|discriminate].
      rewrite !app_length in *. lens. rewrite <- !app_assoc. rewrite parseMisc_step.
      transitivity (parseMisc E S H n (st (s0 ++ r) tab nd h1 z)).
      * refine (bind_ret S _ _ (wrap S (parsePI E S H)) (fun _ => parseMisc E S H n) _ tt _ _).
        apply wrap_ret. apply parsePI_st; auto.
      * apply (IH s0 e0); auto; [lia|]. rewrite app_length; lia.
Qed.

Lemma runs_exact : forall v e ht, runs S H v e ht (fun h => deliver v ht e = Some h).
Proof. intros v e ht. exists e. split; [apply same_text_refl|auto]. Qed.
Lemma runs_weaken : forall v e ht (a b : HT -> Prop), (forall h, a h -> b h) -> runs S H v e ht a -> runs S H v e ht b.
Proof. intros v e ht a b Hab (e' & F & D). exists e'. split; auto. Qed.

Lemma scoped_nil : scoped [] [].
Proof. split; [constructor|]. split; [intros p u []|]. split; [discriminate|intros []]. Qed.
Lemma root_st : forall x evs d, element E [] x evs d -> declared_once evs d ->
  forall n r nd ht z, oks S z -> (List.length (x ++ r) <= n)%nat ->
  runs S H (the_view S z) evs ht (fun ht' =>
    parseElement E S H n (parseContent E S H n) (st (x ++ r) [] nd ht z) = (Ret tt, st r d nd ht' z)).
Proof.
  intros x evs d He [Hnd Hroot] n r nd ht z Hz Hn. destruct He as [p l t a d u Hq Ht Hr|p l t a d u s evs d1 Hq Ht Hr Hc Hsl].
  - destruct Hz as [Z1 Z2]. rewrite <- !app_assoc in *. rewrite !app_length in Hn. lens.
    apply runs_one. intros h1 Hd1. apply runs_one. intros h2 Hd2. apply runs_end. unfold parseElement.
    erewrite bind_ret. 2:{ apply wrap_ret. apply (parseStartTag_st E OK S H n p l t a d u [] true r []); eauto. apply scoped_nil. lia. }
    cbn [left]. erewrite bind_ret by (apply lift_st; reflexivity). cbv iota.
    erewrite bind_ret by reflexivity. apply wrap_ret. apply (parseEndTag_empty_st E S H (utf8 p) (utf8 l) u); auto.
  - apply (element_full E OK S H p l t a d u [] s evs d1); auto.
    + apply content_st; auto.
    + apply scoped_nil.
    + intros Hi. destruct Hroot as [v Hv]; [rewrite map_app; apply in_or_app; auto|].
      cbn [root_spaces find app] in Hv. apply in_map_iff in Hv as (y & Hy & Hi'). inversion Hy; subst.
      rewrite map_app in Hnd. apply (in_map fst) in Hi'. cbn [fst] in Hi'.
      clear - Hnd Hi Hi'. induction (map fst d) as [|w m IH]; [destruct Hi'|]. inversion Hnd; subst. destruct Hi' as [->|Hi'].
      * apply H1. apply in_or_app; auto.
      * auto.
Qed.

(* the part of parseDocument after the encoding has been settled *)
Definition rest (n : nat) : M S unit :=
  bind S (emit S H EStartDocument) (fun _ =>
  bind S (wrap S (parseMisc E S H n)) (fun _ =>
  bind S (mhas S (s_ "<!DOCTYPE")) (fun dt =>
  bind S (if dt : bool then parseDTD E S H n else ret S tt) (fun _ =>
  bind S (mskip S) (fun _ =>
  bind S (mpeek E S) (fun c =>
    if negb (c =? 60) then failw S "ErrEmptyDocument"
    else
      bind S (wrap S (parseElement E S H n (parseContent E S H n))) (fun _ =>
      bind S (wrap S (parseMisc E S H n)) (fun _ =>
      bind S (mdone S) (fun fin =>
      if negb fin then failw S "ErrDocumentEnd"
      else emit S H EEndDocument))))))))).

Lemma rest_st : forall m1 x m2 e1 e2 e3 d, misc E m1 e1 -> element E [] x e2 d -> misc E m2 e3 -> declared_once e2 d ->
  forall n ht z, oks S z -> (List.length (m1 ++ x ++ m2) < n)%nat ->
  runs S H (the_view S z) (EStartDocument :: (e1 ++ e2 ++ e3) ++ [EEndDocument]) ht (fun ht' =>
    rest n (st (m1 ++ x ++ m2) [] [] ht z) = (Ret tt, st [] d [] ht' z)).
Proof.
  intros m1 x m2 e1 e2 e3 d Hm1 Hx Hm2 Hone n ht z Hz Hn.
  destruct (elem_head E _ _ _ _ Hx) as (c & t & Hxc & Hc).
  destruct (name_start_facts E OK c Hc) as (C1 & C2 & C3 & C4 & C5 & C6 & C7).
  assert (Hno : nomisc (x ++ m2)) by (rewrite Hxc; apply nomisc_tag; auto).
  apply runs_one. intros h1 Hd1. rewrite <- !app_assoc.
  eapply runs_app; [apply runs_exact|]. intros h2 Hd2. cbn beta in Hd2.
  eapply runs_app. { apply (root_st x e2 d Hx Hone n m2 [] h2 z Hz). rewrite !app_length in *. lia. }
  intros h3 Hel. eapply runs_app; [apply runs_exact|]. intros h4 Hd4. apply runs_one. intros h5 Hd5. apply runs_end.
  unfold rest. erewrite bind_ret by (apply emit_st; exact Hd1).
  erewrite bind_ret. 2:{ apply wrap_ret. eapply (misc_st (List.length m1) m1 e1); eauto. }
  erewrite bind_ret by (apply lift_st; reflexivity).
  replace (has_prefix (s_ "<!DOCTYPE") (x ++ m2)) with false.
  2:{ rewrite Hxc. cbn. destruct (Z.eqb_spec 33 c); [congruence|reflexivity]. }
  erewrite bind_ret by reflexivity.
  destruct (mskip0_st S (x ++ m2) [] [] h2 z) as [w Hw]; [rewrite Hxc; reflexivity|]. erewrite bind_ret by exact Hw.
  erewrite bind_ret by (eapply mpeek_eq; rewrite Hxc; reflexivity). change (60 =? 60) with true. cbn [negb].
  erewrite bind_ret. 2:{ apply wrap_ret. exact Hel. }
  erewrite bind_ret.
  2:{ apply wrap_ret. rewrite <- (app_nil_r m2) at 1. apply (misc_st (List.length m2) m2 e3 (le_n _) Hm2 n [] d [] h3 h4 z (conj I (conj eq_refl eq_refl))); [|exact Hd4].
      rewrite app_nil_r. rewrite !app_length in Hn. lia. }
  erewrite bind_ret by reflexivity. cbn [Complete.st inp done negb]. apply emit_st; auto.
Qed.

(* ---- the document ---- *)
Definition docview (i : docinfo) : view := {|
  v_version := di_version i; v_encoding := match di_encoding i with Some n => n | None => [] end;
  v_standalone := sa_code (di_standalone i); v_inSubset := 0 |}.
Definition view0 : view := {| v_version := []; v_encoding := []; v_standalone := StandaloneImplicitNo; v_inSubset := 0 |}.
Definition bom_ok (b : list Z) : Prop := b = [] \/ b = [239; 187; 191].

Lemma detect_bom : forall l, detectEncoding ([239; 187; 191] ++ l) = Some (encUTF8, l).
Proof. intros l. reflexivity. Qed.
Lemma detect_plain : forall c l, c = 60 \/ blank c = true -> hd 1 l <> 0 ->
  detectEncoding (c :: l) = None \/ detectEncoding (c :: l) = Some (encUTF8, c :: l).
Proof.
  intros c l Hc Hl. unfold detectEncoding.
  assert (Hcase : c = 60 \/ c = 32 \/ c = 9 \/ c = 10 \/ c = 13) by (unfold blank in Hc; lia).
  destruct Hcase as [->|[->|[->|[->| ->]]]]; try (left; reflexivity).
  assert (H0 : forall p w, hd 1 w <> 0 -> consume (60 :: 0 :: p) (60 :: w) = None).
  { intros p w Hw. unfold consume. cbn [has_prefix]. destruct w as [|y w]; [reflexivity|]. cbn [hd] in Hw.
    destruct (Z.eqb_spec 0 y); [congruence|]. rewrite andb_false_r. reflexivity. }
  assert (H1 : forall k p w, k <> 60 -> consume (k :: p) (60 :: w) = None).
  { intros k p w Hk. unfold consume. cbn [has_prefix]. destruct (Z.eqb_spec k 60); [congruence|]. reflexivity. }
  unfold patUCS4BE, patUCS4LE, patUCS42143, patUCS43412, patUTF16LE4B, patUTF16BE4B, patUTF8, patUTF16BE2B, patUTF16LE2B, patEBCDIC.
  rewrite !H0 by auto. rewrite !H1 by lia. change (has_prefix [76; 111; 167; 148] (60 :: l)) with false. cbv iota.
  destruct (has_prefix patMaybeXMLDecl (60 :: l)); auto.
Qed.

Lemma Load_utf8 : Load (lower E) encUTF8 = Some E_UTF8.
Proof.
  unfold Load, ToLower. change (runes_of encUTF8) with [117; 116; 102; 56].
  cbn [map]. rewrite !(ok_lower E OK) by lia. reflexivity.
Qed.
Lemma enc_ascii : forall n, enc_name n -> Forall (fun c => 0 <= c < 128) n.
Proof.
  intros n (a & r & -> & Ha & Hr). constructor; [unfold alpha in Ha; lia|]. eapply Forall_impl; [|exact Hr].
  cbn beta. intros c Hc. unfold alpha, digit10 in Hc. lia.
Qed.
Lemma utf8_ascii : forall n, Forall (fun c => 0 <= c < 128) n -> utf8 n = n.
Proof. intros n Hn. induction Hn as [|c n Hc _ IH]; [reflexivity|]. unfold utf8 in *. cbn [flat_map]. rewrite IH, encode_ascii by lia. reflexivity. Qed.
Lemma runes_ascii : forall n, Forall (fun c => 0 <= c < 128) n -> runes_of n = n.
Proof.
  intros n Hn. rewrite <- (utf8_ascii n Hn) at 1. apply runes_of_utf8. eapply Forall_impl; [|exact Hn]. intros c Hc. cbn beta in Hc. unfold valid_rune. lia.
Qed.
Lemma Load_name : forall n, enc_name n -> utf8_name n -> Load (lower E) n = Some E_UTF8.
Proof.
  intros n Hn Hu. pose proof (enc_ascii n Hn) as Ha. unfold Load, ToLower. rewrite (runes_ascii n Ha).
  replace (map (lower E) n) with (map lowercase n).
  - destruct Hu as [-> | ->]; reflexivity.
  - apply map_ext_in. intros c Hc. rewrite Forall_forall in Ha. rewrite (ok_lower E OK) by auto. reflexivity.
Qed.
Lemma decl_ascii : forall h v enc sa, xml_decl h v enc sa -> Forall (fun c => 0 <= c < 128) h.
Proof.
  assert (Hb : forall b, blanks b -> Forall (fun c => 0 <= c < 128) b).
  { intros b Hb. eapply Forall_impl; [|exact Hb]. cbn beta. intros c Hc. unfold blank in Hc. lia. }
  assert (Hp : forall name v s, Forall (fun c => 0 <= c < 128) (s_ name) -> Forall (fun c => 0 <= c < 128) v -> pseudo name v s -> Forall (fun c => 0 <= c < 128) s).
  { intros name v s Hn Hv Hs. destruct Hs as [b e1 e2 q B1 B2 B3 B4 B5]. repeat (apply Forall_app; split); auto;
    constructor; auto; lia. }
  intros h v enc sa Hd. destruct Hd as [v sv enc se sa ss Hv Hsv Hse Hss].
  repeat (apply Forall_app; split).
  - repeat constructor; lia.
  - apply (Hp "version"%string v); auto; [repeat constructor; lia|]. destruct Hv as (a & b & r & -> & Ha & Hbb & Hr).
    unfold digit10 in *. constructor; [lia|]. constructor; [lia|]. constructor; [lia|].
    eapply Forall_impl; [|exact Hr]. cbn beta. intros c Hc. lia.
  - destruct enc as [n|]; [|subst; constructor]. destruct Hse as [Hn Hse]. apply (Hp "encoding"%string n); auto; [repeat constructor; lia|apply enc_ascii; auto].
  - destruct sa as [b|]; [|subst; constructor]. apply (Hp "standalone"%string _ _) in Hss; auto; [repeat constructor; lia|]. destruct b; repeat constructor; lia.
  - repeat constructor; lia.
Qed.
Lemma first_byte : forall m1 x m2 e1 e2 d, misc E m1 e1 -> element E [] x e2 d ->
  exists c l, m1 ++ x ++ m2 = c :: l /\ (c = 60 \/ blank c = true) /\ (c = 60 -> exists b l', l = b :: l' /\ b <> 0).
Proof.
  intros m1 x m2 e1 e2 d Hm Hx. destruct (elem_head E _ _ _ _ Hx) as (c & t & -> & Hc).
  destruct Hm.
  - exists 60, (c :: t ++ m2). split; [reflexivity|]. split; [auto|]. intros _. eexists c, _. split; [reflexivity|].
    intros ->. unfold name_start in Hc. rewrite (ok_letter E OK) in Hc by lia. discriminate.
  - eexists c0, _. split; [reflexivity|]. split; [auto|]. intros ->. discriminate.
  - eexists 60, _. split; [reflexivity|]. split; [auto|]. intros _. eexists 33, _. split; [reflexivity|discriminate].
  - eexists 60, _. split; [reflexivity|]. split; [auto|]. intros _. eexists 63, _. split; [reflexivity|discriminate].
  - eexists 60, _. split; [reflexivity|]. split; [auto|]. intros _. eexists 63, _. split; [reflexivity|discriminate].
Qed.

(* the state of a parse whose declaration has been read *)
Definition zof (i : docinfo) (h : S) (bytes : str) : pst :=
  set_decl S (di_version i) (match di_encoding i with Some n => n | None => [] end) (sa_code (di_standalone i)) (init S h bytes).

Lemma parseDocument_eq : forall hdr body (i : docinfo) bom n h h1,
  bom_ok bom -> deliver view0 (h, []) [ESetDocumentLocator] = Some h1 ->
  Forall (fun c => valid_rune c = true) body ->
  (hdr = [] /\ i = {| di_version := []; di_encoding := None; di_standalone := None |} /\ has_prefix (s_ "<?xml") (utf8 body) = false /\
     (exists c l, utf8 body = c :: l /\ (c = 60 \/ blank c = true) /\ hd 1 l <> 0)
   \/ xml_decl hdr (di_version i) (di_encoding i) (di_standalone i) /\ (forall n, di_encoding i = Some n -> utf8_name n)) ->
  Parse E S H n h (bom ++ utf8 (hdr ++ body)) = rest n (st body [] [] h1 (zof i h (bom ++ utf8 (hdr ++ body)))).
Proof.
  intros hdr body i bom n h h1 Hbom Hd0 Hval Hhdr. unfold Parse.
  set (bytes := bom ++ utf8 (hdr ++ body)). set (s0 := init S h bytes).
  change s0 with (st bytes [] [] (h, []) s0). unfold parseDocument.
  erewrite bind_ret by (apply emit_st; exact Hd0).
  assert (Hdet : (fun s => match detectEncoding (inp s) with Some (enc, r0) => (Ret enc, set_inp S r0 s) | None => (@Ret gerr str encUTF8, s) end)
            (st bytes [] [] h1 s0) = (Ret encUTF8, st (utf8 (hdr ++ body)) [] [] h1 s0)).
  { cbn beta. cbn [Complete.st inp]. destruct Hbom as [Hb|Hb]; subst bom.
    - subst bytes. cbn [app]. assert (Hd : detectEncoding (utf8 (hdr ++ body)) = None \/ detectEncoding (utf8 (hdr ++ body)) = Some (encUTF8, utf8 (hdr ++ body))).
      { destruct Hhdr as [(-> & _ & _ & c & l & Hu & Hc & Hl)|(Hx & _)].
        - cbn [app]. rewrite Hu. apply detect_plain; auto.
        - right. rewrite utf8_app, (utf8_ascii hdr (decl_ascii _ _ _ _ Hx)). destruct Hx. rewrite <- !app_assoc. reflexivity. }
      destruct Hd as [-> | ->]; reflexivity.
    - subst bytes. rewrite detect_bom. reflexivity. }
  erewrite bind_ret by exact Hdet.
  assert (Hne : exists c l, utf8 (hdr ++ body) = c :: l).
  { destruct Hhdr as [(-> & _ & _ & c & l & Hu & _)|(Hx & _)]; [cbn [app]; eauto|].
    rewrite utf8_app, (utf8_ascii hdr (decl_ascii _ _ _ _ Hx)). destruct Hx. eexists 60, _. reflexivity. }
  erewrite bind_ret by (unfold mdone, get; reflexivity). cbn [Complete.st inp].
  replace (done (utf8 (hdr ++ body))) with false by (destruct Hne as (c & l & ->); reflexivity).
  erewrite bind_ret by (apply lift_st; reflexivity).
  destruct Hhdr as [(-> & -> & Hpre & _)|(Hx & Henc)].
  - cbn [app]. rewrite Hpre. erewrite bind_ret by reflexivity.
    erewrite bind_ret. 2:{ apply wrap_ret. unfold switchEncoding. change (encoding (st (utf8 body) [] [] h1 s0)) with (@nil Z). cbv iota beta.
      rewrite Load_utf8. change (inp (st (utf8 body) [] [] h1 s0)) with (utf8 body). rewrite (ok_utf8 E OK), runes_of_utf8 by auto.
      reflexivity. }
    change (set_inp S body (st (utf8 body) [] [] h1 s0)) with (st body [] [] h1 s0).
    reflexivity.
  - rewrite utf8_app, (utf8_ascii hdr (decl_ascii _ _ _ _ Hx)).
    replace (has_prefix (s_ "<?xml") (hdr ++ utf8 body)) with true by (destruct Hx; rewrite <- !app_assoc; reflexivity).
    erewrite bind_ret.
    2:{ erewrite bind_ret. 2:{ apply lift_st. unfold pwrap. rewrite (xmldecl_ok _ _ _ _ _ Hx). reflexivity. }
        unfold modify. cbn [xd_version xd_encoding xd_standalone]. reflexivity. }
    match goal with |- context [set_decl S ?v ?e ?a (st ?l ?t ?nd ?h ?s)] => change (set_decl S v e a (st l t nd h s)) with (st l t nd h (set_decl S v e a s));
      set (s1 := set_decl S v e a s) end.
    erewrite bind_ret.
    2:{ apply wrap_ret. unfold switchEncoding.
        change (encoding (st (utf8 body) [] [] h1 s1)) with (match di_encoding i with Some n => n | None => [] end).
        replace (Load (lower E) match (match di_encoding i with Some n => n | None => [] end) with [] => encUTF8 | e => e end) with (Some E_UTF8).
        2:{ symmetry. destruct (di_encoding i) as [nm|] eqn:Hen; [|apply Load_utf8].
            assert (Hn : enc_name nm). { inversion Hx as [v sv enc se sa ss Hv Hsv Hse Hss]; subst. apply Hse. }
            destruct nm as [|y nm]; [destruct Hn as (? & ? & ? & _); discriminate|]. apply Load_name; auto. }
        change (inp (st (utf8 body) [] [] h1 s1)) with (utf8 body). rewrite (ok_utf8 E OK), runes_of_utf8 by auto. reflexivity. }
    change (set_inp S body (st (utf8 body) [] [] h1 s1)) with (st body [] [] h1 s1).
    reflexivity.
Qed.

Lemma parseDocument_st : forall hdr body (i : docinfo) bom n h h1 r,
  bom_ok bom -> deliver view0 (h, []) [ESetDocumentLocator] = Some h1 ->
  Forall (fun c => valid_rune c = true) body ->
  (hdr = [] /\ i = {| di_version := []; di_encoding := None; di_standalone := None |} /\ has_prefix (s_ "<?xml") (utf8 body) = false /\
     (exists c l, utf8 body = c :: l /\ (c = 60 \/ blank c = true) /\ hd 1 l <> 0)
   \/ xml_decl hdr (di_version i) (di_encoding i) (di_standalone i) /\ (forall n, di_encoding i = Some n -> utf8_name n)) ->
  let z := zof i h (bom ++ utf8 (hdr ++ body)) in rest n (st body [] [] h1 z) = (Ret tt, st [] (fst r) [] (snd r) z) ->
  exists s', Parse E S H n h (bom ++ utf8 (hdr ++ body)) = (Ret tt, s') /\ hs s' = fst (snd r) /\ tr s' = snd (snd r).
Proof.
  intros hdr body i bom n h h1 r Hbom Hd0 Hval Hhdr z Hrest. rewrite (parseDocument_eq hdr body i bom n h h1 Hbom Hd0 Hval Hhdr).
  fold z. rewrite Hrest. eexists. split; [reflexivity|]. split; reflexivity.
Qed.

(* every start tag event before the root's comes from the root *)
Lemma misc_no_start : forall m e, misc E m e -> forall l, find (fun e => match e with EStartElement _ _ _ _ _ => true | _ => false end) (e ++ l) =
  find (fun e => match e with EStartElement _ _ _ _ _ => true | _ => false end) l.
Proof. intros m e Hm l. induction Hm; cbn [app find]; auto. Qed.
Lemma once_root : forall m x e1 e2 e3 d, misc E m e1 -> element E [] x e2 d -> declared_once (e1 ++ e2 ++ e3) d -> declared_once e2 d.
Proof.
  intros m x e1 e2 e3 d Hm Hx [H1 H2]. split; [auto|]. intros Hi. destruct (H2 Hi) as [u Hu]. exists u.
  unfold root_spaces in *. rewrite (misc_no_start m e1 Hm) in Hu. destruct Hx; cbn [app find] in *; auto.
Qed.

Lemma prefix_utf8 : forall p l, Forall (fun c => 0 <= c < 128) p -> has_prefix p (utf8 l) = true -> has_prefix p l = true.
Proof.
  induction p as [|c p IH]; intros l Hp Hh; [destruct l; reflexivity|]. inversion Hp as [|? ? Hc Hp']; subst.
  destruct l as [|x l]; [discriminate|]. unfold utf8 in Hh. cbn [flat_map] in Hh. fold (utf8 l) in Hh.
  assert (x = c) as ->.
  { destruct (encode_rune x) as [|b w] eqn:Hx; [pose proof (encode_nonempty x); congruence|]. cbn [app has_prefix] in Hh.
    apply andb_prop in Hh as [Hb _]. assert (Hi : In c (encode_rune x)) by (rewrite Hx; left; lia).
    apply encode_high in Hi as [_ Hi]; lia. }
  rewrite encode_ascii in Hh by lia. cbn [app has_prefix] in *. apply andb_prop in Hh as [Ha Hb]. rewrite Ha, IH; auto.
Qed.
Lemma prefix_split : forall p a b, has_prefix p (a ++ b) = true -> (List.length p <= List.length a)%nat -> exists r, a = p ++ r.
Proof.
  induction p as [|c p IH]; intros a b Hh Hl; [exists a; auto|]. destruct a as [|x a]; [cbn in Hl; lia|]. cbn [app has_prefix] in Hh.
  apply andb_prop in Hh as [Ha Hb]. apply Z.eqb_eq in Ha. subst x. destruct (IH a b Hb) as [r ->]; [cbn in Hl; lia|]. exists r. reflexivity.
Qed.

Theorem document_st : forall src i evs d, document E src i evs d -> declared_once evs d ->
  forall bom n h h1, bom_ok bom -> (List.length src < n)%nat -> deliver view0 (h, []) [ESetDocumentLocator] = Some h1 ->
  runs S H (docview i) (EStartDocument :: evs ++ [EEndDocument]) h1 (fun ht' =>
    exists s', Parse E S H n h (bom ++ utf8 src) = (Ret tt, s') /\ hs s' = fst ht' /\ tr s' = snd ht').
Proof.
  intros src i evs d Hdoc Hone bom n h h1 Hbom Hn Hd0.
  destruct Hdoc as [m1 x m2 e1 e2 e3 d Hm1 Hx Hm2 Hnx|hd v enc sa m1 x m2 e1 e2 e3 d Hdecl Henc Hm1 Hx Hm2].
  - set (i := {| di_version := []; di_encoding := None; di_standalone := None |}). set (z := zof i h (bom ++ utf8 ([] ++ m1 ++ x ++ m2))).
    destruct (rest_st m1 x m2 e1 e2 e3 d Hm1 Hx Hm2 (once_root _ _ _ _ _ _ Hm1 Hx Hone) n h1 z (conj eq_refl eq_refl) Hn) as (evs' & F & D).
    exists evs'. split; [exact F|]. intros ht' Hd.
    apply (parseDocument_st [] (m1 ++ x ++ m2) i bom n h h1 (d, ht')); auto.
    { apply legals_valid. repeat apply legals_app; [eapply misc_legal|eapply element_legal|eapply misc_legal]; eauto. }
    left. split; [auto|]. split; [auto|]. split.
    + destruct (has_prefix (s_ "<?xml") (utf8 (m1 ++ x ++ m2))) eqn:Hp; [|reflexivity]. exfalso.
      apply prefix_utf8 in Hp; [|repeat constructor; lia]. destruct (elem_head E _ _ _ _ Hx) as (c & t & -> & Hc).
      destruct (name_start_facts E OK c Hc) as (_ & _ & _ & _ & _ & C6 & _).
      destruct Hm1; cbn [app] in Hp.
      * cbn in Hp. destruct (Z.eqb_spec 63 c); [congruence|discriminate].
      * cbn in Hp. unfold blank in H0. destruct (Z.eqb_spec 60 c0); [lia|discriminate].
      * discriminate.
      * apply prefix_split in Hp; [destruct Hp as [r Hp]; apply (Hnx r); auto|]. rewrite !app_length. lens.
        destruct t0 as [|w t0]; [destruct H0 as [[[] _] _]|cbn; lia].
      * apply prefix_split in Hp; [destruct Hp as [r Hp]; apply (Hnx r); auto|]. rewrite !app_length. lens.
        destruct t0 as [|w t0]; [destruct H0 as [[[] _] _]|cbn; lia].
    + destruct (first_byte m1 x m2 e1 e2 d Hm1 Hx) as (c & l & Heq & Hc & Hc2). rewrite Heq. exists c, (utf8 l).
      split; [unfold utf8; cbn [flat_map]; rewrite encode_ascii by (unfold blank in Hc; lia); reflexivity|].
      split; [auto|]. intros H0. destruct (utf8 l) as [|b w] eqn:Hu; [discriminate H0|]. cbn in H0. subst b.
      assert (Hi : In 0 (utf8 l)) by (rewrite Hu; left; auto). apply utf8_In_ascii in Hi; [|lia].
      assert (Hl : legals (m1 ++ x ++ m2)) by (repeat apply legals_app; [eapply misc_legal|eapply element_legal|eapply misc_legal]; eauto).
      rewrite Heq in Hl. inversion Hl as [|? ? _ Hl']; subst. unfold legals in Hl'. rewrite Forall_forall in Hl'. apply Hl' in Hi. discriminate.
  - set (i := {| di_version := v; di_encoding := enc; di_standalone := sa |}). set (z := zof i h (bom ++ utf8 (hd ++ m1 ++ x ++ m2))).
    destruct (rest_st m1 x m2 e1 e2 e3 d Hm1 Hx Hm2 (once_root _ _ _ _ _ _ Hm1 Hx Hone) n h1 z (conj eq_refl eq_refl)) as (evs' & F & D).
    { rewrite app_length in Hn. lia. }
    exists evs'. split; [exact F|]. intros ht' Hd.
    apply (parseDocument_st hd (m1 ++ x ++ m2) i bom n h h1 (d, ht')); auto.
    apply legals_valid. repeat apply legals_app; [eapply misc_legal|eapply element_legal|eapply misc_legal]; eauto.
Qed.

(* a handler that never objects *)
Definition accepts : Prop := forall h v e, snd (h_event H h v e) = HNil \/ snd (h_event H h v e) = HUnspec.
Lemma deliver_accepts : accepts -> forall v evs ht, exists ht', deliver v ht evs = Some ht' /\ map fst (snd ht') = rev evs ++ map fst (snd ht).
Proof.
  intros Ha v. induction evs as [|e evs IH]; intros ht; [exists ht; auto|]. cbn [Complete.deliver].
  destruct (h_event H (fst ht) v e) as [h' a] eqn:He. specialize (Ha (fst ht) v e). rewrite He in Ha. cbn [snd] in Ha.
  destruct (IH (h', (e, a) :: snd ht)) as (ht' & Hd & Hm). exists ht'. cbn [snd map fst rev] in *.
  rewrite Hm, <- app_assoc. destruct Ha as [-> | ->]; auto.
Qed.
Theorem document_events : accepts -> forall src i evs d, document E src i evs d -> declared_once evs d ->
  forall bom n h, bom_ok bom -> (List.length src < n)%nat ->
  exists evs' s', Forall2 same_text evs evs' /\ Parse E S H n h (bom ++ utf8 src) = (Ret tt, s') /\
    rev (map fst (tr s')) = ESetDocumentLocator :: EStartDocument :: evs' ++ [EEndDocument].
Proof.
  intros Ha src i evs d Hdoc Hone bom n h Hbom Hn.
  destruct (deliver_accepts Ha view0 [ESetDocumentLocator] (h, [])) as (h1 & Hd1 & Hm1).
  destruct (document_st src i evs d Hdoc Hone bom n h h1 Hbom Hn Hd1) as (evs0 & F & D).
  destruct (deliver_accepts Ha (docview i) evs0 h1) as (ht' & Hd & Hm).
  destruct (D ht' Hd) as (s' & Hp & _ & Htr).
  inversion F as [|? x ? evs1 Fx F1]; subst. destruct Fx as [->|(t & Ht & _)]; [|discriminate].
  apply Forall2_app_inv_l in F1 as (evs2 & e3 & F2 & F3 & ->).
  inversion F3 as [|? y ? nil0 Fy F4]; subst. inversion F4; subst. destruct Fy as [->|(t & Ht & _)]; [|discriminate].
  exists evs2, s'. split; [auto|]. split; [auto|]. rewrite Htr, Hm, Hm1. cbn [rev map snd]. rewrite app_nil_r.
  rewrite ?rev_app_distr. cbn [rev app]. rewrite ?rev_app_distr, ?rev_involutive. cbn [rev app]. rewrite ?rev_app_distr, ?rev_involutive. reflexivity.
Qed.
End H.
End D.
