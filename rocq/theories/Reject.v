(* Documents that are well formed up to a place inside the root element and
   wrong there are refused.  [place] describes what stands before that place,
   [bad] lists what is wrong at it; both are written from the grammar of
   Grammar.v and independent of the parser. *)
From Verif Require Import Base Utf8 Utf8Proofs Encoding XmlSpec EscapeProofs Scan ScanProofs LexProofs Parser Grammar TextProofs Complete DocComplete.

(* ---- specification ---- *)
Section Spec.
Variable E : env.

(* [inside ns q names d evs]: in the scope of the bindings ns, q is complete
   content followed by start tags and complete content alternately; the
   elements it leaves open are names, the innermost first; it declares the
   namespaces d; evs are the events of the last stretch of content *)
Inductive inside (ns : list (str * str)) : list Z -> list (list Z) -> list (str * str) -> list event -> Prop :=
| in_here c evs d : content E ns c evs d -> inside ns c [] d evs
| in_child c evs0 d p l t a d1 u q names d2 evs : content E ns c evs0 d ->
    qnamed E p l -> atts E t a d1 -> resolves (rev d1 ++ ns) (utf8 p) u ->
    inside (rev d1 ++ ns) q names d2 evs -> (forall x, q <> s_ "/>" ++ x) ->
    inside ns (c ++ s_ "<" ++ qname p l ++ t ++ s_ ">" ++ q) (names ++ [qname p l]) (d ++ d1 ++ d2) evs.

(* what may precede the root: an XML declaration or none, then misc *)
Inductive before_root : list Z -> Prop :=
| br_plain m e : misc E m e -> (forall r, m <> s_ "<?xml" ++ r) -> before_root m
| br_decl h v enc sa m e : xml_decl h v enc sa -> (forall n, enc = Some n -> utf8_name n) -> misc E m e -> before_root (h ++ m).

(* a place inside the root: the characters before it, the innermost open
   element, the namespaces declared before it, the events of the content
   directly before it.  As for documents, each prefix is declared once and the
   default namespace by the root only (see C24). *)
Inductive place : list Z -> list Z -> list (str * str) -> list event -> Prop :=
| pl b p l t a d u q names d2 evs : before_root b -> qnamed E p l -> atts E t a d -> resolves (rev d) (utf8 p) u ->
    inside (rev d) q names d2 evs -> (forall x, q <> s_ "/>" ++ x) ->
    NoDup (map fst (d ++ d2)) -> ~ In [] (map fst d2) ->
    place (b ++ s_ "<" ++ qname p l ++ t ++ s_ ">" ++ q) (hd (qname p l) names) (d ++ d2) evs.

(* not directly after character data *)
Definition fresh (evs : list event) : Prop := forall evs' t, evs <> evs' ++ [ECharacters t].

(* what is wrong inside an element [name] where the namespaces d have been
   declared *)
Inductive bad (name : list Z) (d : list (str * str)) (evs : list event) : list Z -> Prop :=
| bad_end x : (forall y, x <> name ++ s_ ">" ++ y) -> bad name d evs (s_ "</" ++ x)
| bad_eof : bad name d evs []
| bad_comment b c x : comment_text b -> legal c = true -> c <> 62 -> bad name d evs (s_ "<!--" ++ b ++ s_ "--" ++ c :: x)
| bad_xmlpi c x : blank c = true \/ c = 63 -> bad name d evs (s_ "<?xml" ++ c :: x)
| bad_number hex b : (hex = false -> hd 0 b <> 120) -> In 59 b -> refNumber hex b = None ->
    bad name d evs (refPrefix hex ++ b)
| bad_charref hex b v x : refNumber hex b = Some (v, x) -> 0 <= v < 2147483648 -> xml_char v = false ->
    bad name d evs (refPrefix hex ++ b)
| bad_char t c x : t = [] \/ text_run t -> fresh evs -> hd c t <> 47 -> hd c t <> 62 -> legal c = false ->
    bad name d evs (t ++ c :: x)
| bad_cdend t x : t = [] \/ text_run t -> ~ contains (s_ "]]>") (t ++ s_ "]]") -> fresh evs ->
    hd 93 t <> 47 -> hd 93 t <> 62 -> bad name d evs (t ++ s_ "]]>" ++ x)
| bad_prefix p l t a d1 (e : bool) x : ncname E p -> ncname E l -> atts E t a d1 -> NoDup (map fst (d ++ d1)) ->
    ~ In (utf8 p) (map fst (d ++ d1)) ->
    bad name d evs (s_ "<" ++ qname p l ++ t ++ (if e then s_ "/>" else s_ ">") ++ x)
| bad_tag c x : name_start E c = false -> c <> 58 -> c <> 47 -> c <> 63 -> c <> 33 -> bad name d evs (60 :: c :: x).
End Spec.

(* ---- proofs ---- *)
Section R.
Variable E : env.
Hypothesis OK : env_ok E.
Variable S : Type.
Variable H : handler S.
Hypothesis HA : accepts S H.
Notation pst := (pst S).
Notation HT := (S * list (event * hres))%type.
Notation st := (st S).

Definition fails {A} (m : M S A) (s : pst) : Prop := exists e, fst (m s) = Fail e.
Lemma fails_bind : forall A B (m : M S A) (f : A -> M S B) s, fails m s -> fails (bind S m f) s.
Proof. intros A B m f s [e He]. exists e. unfold bind. destruct (m s) as [[| | |] ?]; cbn in *; congruence. Qed.
Lemma fails_bind2 : forall A B (m : M S A) (f : A -> M S B) s a s', m s = (Ret a, s') -> fails (f a) s' -> fails (bind S m f) s.
Proof. intros A B m f s a s' Hm [e He]. exists e. rewrite (bind_ret S _ _ m f s a s' Hm). auto. Qed.
Lemma fails_wrap : forall A (m : M S A) s, fails m s -> fails (wrap S m) s.
Proof. intros A m s [e He]. unfold fails, wrap. destruct (m s) as [[| | |] ?]; cbn in *; try discriminate. eauto. Qed.
Lemma fails_lift : forall A (p : P A) l tab nd ht s, (exists e, fst (p l) = Fail e) -> fails (lift S p) (st l tab nd ht s).
Proof. intros A p l tab nd ht s [e He]. exists e. unfold lift. cbn [Complete.st inp]. destruct (p l); auto. Qed.

Lemma deliver_any : forall v evs ht, exists ht', deliver S H v ht evs = Some ht'.
Proof. intros v evs ht. destruct (deliver_accepts S H HA v evs ht) as (ht' & Hd & _). eauto. Qed.
Lemma runs_any : forall v evs ht (r : HT -> Prop), runs S H v evs ht r -> exists ht', r ht'.
Proof. intros v evs ht r (evs' & _ & D). destruct (deliver_any v evs' ht) as [ht' Hd]. eauto. Qed.

Definition joint (evs : list event) (r : list Z) : Prop := starts_markup r \/ (fresh evs /\ hd 0 r <> 47 /\ hd 0 r <> 62).
Lemma joint_tl : forall e evs r, joint (e :: evs) r -> joint evs r.
Proof. intros e evs r [Hj|[Hf Hr]]; [left; auto|right]. split; auto. intros evs' t ->. apply (Hf (e :: evs') t). reflexivity. Qed.
Lemma joint_app : forall a evs r, joint (a ++ evs) r -> joint evs r.
Proof. induction a as [|e a IH]; intros evs r Hj; [auto|]. apply IH. eapply joint_tl; eauto. Qed.

(* ---- complete content, whatever follows ---- *)
Lemma element_st : forall ns x evs d, element E ns x evs d -> Pelement E S H ns x evs d.
Proof.
  intros ns x evs d He n r tab nd ht z Hz Hsc Hnd Hd Hn.
  destruct He as [p l t a d u Hq Ht Hr|p l t a d u s evs d1 Hq Ht Hr Hc Hsl].
  - destruct Hz as [Z1 Z2]. rewrite <- !app_assoc in *. rewrite !app_length in Hn. lens.
    apply runs_one. intros h1 Hd1. apply runs_one. intros h2 Hd2. apply runs_end. unfold parseElement.
    erewrite bind_ret. 2:{ apply wrap_ret. apply (parseStartTag_st E OK S H n p l t a d u ns true r); eauto. lia. }
    cbn [left]. erewrite bind_ret by (apply lift_st; reflexivity). cbv iota.
    erewrite bind_ret by reflexivity. apply wrap_ret. apply (parseEndTag_empty_st E S H (utf8 p) (utf8 l) u); auto.
  - apply (element_full E OK S H p l t a d u ns s evs d1); auto; [apply content_st; auto|].
    intros Hi. apply Hd. rewrite map_app. apply in_or_app; auto.
Qed.

Lemma content_nil : forall ns evs d, content E ns [] evs d -> evs = [] /\ d = [].
Proof.
  intros ns evs d Hc. inversion Hc as [|t t' s ? ? Ht| |b b' s ? ? Hb|t s ? ? Ht|t b x s ? ? Ht|b b' s ? ? Hb|x s evs1 d1 ? ? He]; subst; auto.
  - destruct Ht as (Ht & _). destruct t; [congruence|discriminate].
  - destruct (elem_head E _ _ _ _ He) as (c & r & -> & _). discriminate.
Qed.

Definition Pprefix (ns : list (str * str)) (c : list Z) (evs : list event) (d : list (str * str)) : Prop :=
  forall n r tab nd ht s, joint evs r -> oks S s -> scoped ns tab -> NoDup (map fst (tab ++ d)) -> ~ In [] (map fst d) ->
  (List.length (c ++ r) < n)%nat ->
  exists m ht', (List.length r < m)%nat /\
    parseContent E S H n (st (c ++ r) tab nd ht s) = parseContent E S H m (st r (tab ++ d) nd ht' s).

Lemma prefix_item : forall ns x s e evs d n r tab nd ht z, Pprefix ns s evs d ->
  joint (e :: evs) r -> oks S z -> scoped ns tab -> NoDup (map fst (tab ++ d)) -> ~ In [] (map fst d) ->
  (List.length (x ++ s ++ r) < n)%nat -> (0 < List.length x)%nat ->
  (forall m ht', (List.length (x ++ s ++ r) <= m)%nat -> deliver S H (the_view S z) ht [e] = Some ht' ->
     parseContent E S H (Datatypes.S m) (st (x ++ s ++ r) tab nd ht z) = parseContent E S H m (st (s ++ r) tab nd ht' z)) ->
  exists m ht', (List.length r < m)%nat /\
    parseContent E S H n (st (x ++ s ++ r) tab nd ht z) = parseContent E S H m (st r (tab ++ d) nd ht' z).
Proof.
  intros ns x s e evs d n r tab nd ht z IH Hj Hz Hsc Hnd Hde Hn Hx Hstep. rewrite app_length in Hn. destruct n as [|n]; [lia|].
  destruct (deliver_any (the_view S z) [e] ht) as [h1 Hd].
  destruct (IH n r tab nd h1 z) as (m & ht' & M1 & M3); auto; [eapply joint_tl; eauto|lia|].
  exists m, ht'. split; [auto|]. rewrite (Hstep n h1); auto. rewrite app_length; lia.
Qed.

Lemma joint_text : forall t evs r, joint [ECharacters t] r -> joint evs r -> starts_markup r.
Proof. intros t evs r [Hj|[Hf _]] _; auto. exfalso. apply (Hf [] t). reflexivity. Qed.
Lemma starts_more : forall s r, starts_markup s -> s <> [] -> starts_markup (s ++ r).
Proof. intros s r Hs Hne. destruct s as [|c s]; [congruence|]. destruct Hs as [Hs|Hs]; [discriminate|right; exact Hs]. Qed.

Lemma prefix_st : forall ns c evs d, content E ns c evs d -> Pprefix ns c evs d.
Proof.
  intros ns c evs d Hc. induction Hc as
    [ns|ns t t' s evs d Ht Ht' Hm Hc IH|ns t x s evs d Hr Hx Hc IH|ns b b' s evs d Hb Hb' Hc IH|ns t s evs d Ht Hc IH
    |ns t b x s evs d Ht Hb1 Hb2 Hx Hc IH|ns b b' s evs d Hb Hb' Hc IH|ns x s evs1 d1 evs d He Hc IHc];
  intros n r tab nd ht z Hj Hz Hsc Hnd Hd Hn.
  - exists n, ht. rewrite app_nil_r. cbn [app List.length] in *. repeat split; auto.
  - rewrite <- app_assoc in *. assert (Htne : t <> []) by apply Ht. destruct t as [|c t]; [congruence|].
    assert (Hsm : starts_markup (s ++ r)).
    { destruct s as [|c0 s]; [|apply starts_more; [auto|discriminate]]. apply content_nil in Hc as [-> ->].
      destruct Hj as [Hj|[Hf _]]; [exact Hj|]. exfalso. apply (Hf [] (utf8 t')). reflexivity. }
    destruct n as [|n]; [cbn in Hn; lia|].
    destruct (parseCharData_st E OK S H (c :: t) (s ++ r) tab nd ht z Ht Hsm) as (e & He & Hrun).
    apply (prefix_item ns (c :: t) s e evs d (Datatypes.S n) r tab nd ht z); auto; [|cbn; lia|].
    { destruct Hj as [Hj|[Hf Hr]]; [left; auto|]. right. split; [|auto]. destruct evs as [|e0 evs].
      - exfalso. apply (Hf [] (utf8 t')). reflexivity.
      - intros evs' tx Hq. destruct evs' as [|e1 evs']; [discriminate|]. inversion Hq; subst. apply (Hf (ECharacters (utf8 t') :: evs') tx). cbn. congruence. }
    intros m ht' Hm' Hdl. rewrite parseContent_step. cbn [app done].
    assert (c <> 60 /\ c <> 38) as [C1 C2].
    { destruct Ht as (_ & _ & T1 & T2 & _). split; intros ->; [apply T1|apply T2]; left; auto. }
    cbn [s_ has_prefix]. cbn. destruct (Z.eqb_spec 60 c); [congruence|]. destruct (Z.eqb_spec 38 c); [congruence|]. cbn [andb].
    erewrite bind_ret by (apply Hrun; exact Hdl). reflexivity.
  - destruct (reference_legal t x s Hr) as (p & -> & _).
    pose proof (reference_app _ _ _ r Hr) as Hr'.
    change (38 :: p ++ s) with ((38 :: p) ++ s) in *. rewrite <- app_assoc in *.
    apply (prefix_item ns (38 :: p) s (ECharacters (utf8 [x])) evs d n r tab nd ht z); auto; [cbn; lia|].
    intros m ht' Hm' Hdl. rewrite parseContent_step. cbn [app done].
    refine (bind_ret S _ _ (wrap S (parseReference E S H (parseContent E S H m))) (fun _ => parseContent E S H m) _ tt _ _).
    apply wrap_ret. apply (parseReference_st E OK S H _ _ x); auto.
  - rewrite (eol_crlf_eq _ _ Hb') in *.
    assert (Heq : (s_ "<!--" ++ b ++ s_ "-->" ++ s) ++ r = (s_ "<!--" ++ b ++ s_ "-->") ++ s ++ r) by (rewrite <- !app_assoc; reflexivity).
    rewrite Heq in *. replace (s_ "<!--" ++ b ++ s_ "-->" ++ s) with ((s_ "<!--" ++ b ++ s_ "-->") ++ s) by (rewrite <- !app_assoc; reflexivity).
    eapply (prefix_item ns _ s _ evs d n r tab nd ht z); eauto; [cbn; lia|].
    intros m ht' Hm' Hdl. rewrite <- !app_assoc. rewrite parseContent_step.
    refine (bind_ret S _ _ (wrap S (parseComment E S H)) (fun _ => parseContent E S H m) _ tt _ _). apply wrap_ret. apply parseComment_st; auto.
  - assert (Heq : (s_ "<?" ++ t ++ s_ "?>" ++ s) ++ r = (s_ "<?" ++ t ++ s_ "?>") ++ s ++ r) by (rewrite <- !app_assoc; reflexivity).
    rewrite Heq in *. replace (s_ "<?" ++ t ++ s_ "?>" ++ s) with ((s_ "<?" ++ t ++ s_ "?>") ++ s) by (rewrite <- !app_assoc; reflexivity).
    eapply (prefix_item ns _ s _ evs d n r tab nd ht z); eauto; [cbn; lia|].
    intros m ht' Hm' Hdl. rewrite <- !app_assoc. rewrite parseContent_step.
    refine (bind_ret S _ _ (wrap S (parsePI E S H)) (fun _ => parseContent E S H m) _ tt _ _). apply wrap_ret. apply parsePI_st0; auto.
  - assert (Heq : (s_ "<?" ++ t ++ b ++ x ++ s_ "?>" ++ s) ++ r = (s_ "<?" ++ t ++ b ++ x ++ s_ "?>") ++ s ++ r) by (rewrite <- !app_assoc; reflexivity).
    rewrite Heq in *. replace (s_ "<?" ++ t ++ b ++ x ++ s_ "?>" ++ s) with ((s_ "<?" ++ t ++ b ++ x ++ s_ "?>") ++ s) by (rewrite <- !app_assoc; reflexivity).
    eapply (prefix_item ns _ s _ evs d n r tab nd ht z); eauto; [cbn; lia|].
    intros m ht' Hm' Hdl. rewrite <- !app_assoc. rewrite parseContent_step.
    refine (bind_ret S _ _ (wrap S (parsePI E S H)) (fun _ => parseContent E S H m) _ tt _ _). apply wrap_ret. apply parsePI_st; auto.
  - rewrite (eol_crlf_eq _ _ Hb') in *.
    assert (Heq : (s_ "<![CDATA[" ++ b ++ s_ "]]>" ++ s) ++ r = (s_ "<![CDATA[" ++ b ++ s_ "]]>") ++ s ++ r) by (rewrite <- !app_assoc; reflexivity).
    rewrite Heq in *. replace (s_ "<![CDATA[" ++ b ++ s_ "]]>" ++ s) with ((s_ "<![CDATA[" ++ b ++ s_ "]]>") ++ s) by (rewrite <- !app_assoc; reflexivity).
    eapply (prefix_item ns _ s _ evs d n r tab nd ht z); eauto; [cbn; lia|].
    intros m ht' Hm' Hdl. rewrite <- !app_assoc. rewrite parseContent_step.
    refine (bind_ret S _ _ (wrap S (parseCDSect E S H)) (fun _ => parseContent E S H m) _ tt _ _). apply wrap_ret. apply parseCDSect_st; auto.
  - destruct (elem_head E _ _ _ _ He) as (c & y & Hx & Hcs).
    rewrite <- app_assoc in *. destruct n as [|n]; [lia|]. rewrite app_assoc in Hnd. rewrite map_app in Hd.
    assert (Hnd1 : NoDup (map fst (tab ++ d1))) by (rewrite map_app in Hnd; apply NoDup_app_l in Hnd; auto).
    destruct (runs_any _ _ _ _ (element_st ns x evs1 d1 He n (s ++ r) tab nd ht z Hz Hsc Hnd1
      ltac:(intros Hi; apply Hd; apply in_or_app; auto) ltac:(lia))) as [h1 Hel].
    destruct (IHc n r (tab ++ d1) nd h1 z) as (m & ht' & M1 & M3); auto.
    { eapply joint_app; eauto. }
    { apply scoped_after; auto; [eapply element_values; eauto|]. intros Hi. apply Hd. apply in_or_app; auto. }
    { intros Hi. apply Hd. apply in_or_app; auto. }
    { rewrite Hx, app_length in Hn. cbn in Hn. lia. }
    exists m, ht'. split; [auto|]. rewrite (app_assoc tab), <- M3, parseContent_step, Hx.
    rewrite Hx in Hel. cbn [app done].
    destruct (name_start_facts E OK c Hcs) as (C1 & C2 & C3 & C4 & C5 & C6 & C7).
    destruct (elem_prefix c (y ++ s ++ r) C3 C6 C7) as (-> & -> & -> & -> & ->).
    refine (bind_ret S _ _ (wrap S (parseElement E S H n (parseContent E S H n))) (fun _ => parseContent E S H n) _ tt _ _).
    apply wrap_ret. exact Hel.
Qed.

(* ---- failing inside ---- *)
Definition inner (n : nat) : M S unit := bind S (wrap S (parseContent E S H n)) (fun _ => wrap S (parseEndTag E S H)).
Lemma inner_content : forall n s, fails (parseContent E S H n) s -> fails (inner n) s.
Proof. intros n s Hf. apply fails_bind, fails_wrap, Hf. Qed.

Lemma no_slash_gt : forall q r, (forall x, q <> s_ "/>" ++ x) -> starts_markup r \/ (hd 0 r <> 47 /\ hd 0 r <> 62) -> has_prefix (s_ "/>") (q ++ r) = false.
Proof.
  intros q r Hq Hr. destruct (has_prefix (s_ "/>") (q ++ r)) eqn:Hp; [|reflexivity]. exfalso.
  destruct q as [|x [|y q]]; cbn [app] in Hp.
  - destruct r as [|a r]; [discriminate|]. cbn in Hp, Hr. destruct (Z.eqb_spec 47 a); [subst|discriminate]. destruct Hr as [[Hr|[Hr|Hr]]|[Hr _]]; cbn in Hr; congruence.
  - destruct r as [|b r]; [cbn in Hp; rewrite andb_false_r in Hp; discriminate|].
    cbn in Hp, Hr. destruct (Z.eqb_spec 47 x); [|discriminate]. destruct (Z.eqb_spec 62 b); [subst|discriminate]. destruct Hr as [[Hr|[Hr|Hr]]|[_ Hr]]; cbn in Hr; congruence.
  - cbn in Hp. destruct (Z.eqb_spec 47 x); [|discriminate]. destruct (Z.eqb_spec 62 y); [|discriminate]. subst. apply (Hq q). reflexivity.
Qed.
Lemma joint_head : forall evs r, joint evs r -> starts_markup r \/ (hd 0 r <> 47 /\ hd 0 r <> 62).
Proof. intros evs r [Hj|[_ Hj]]; auto. Qed.

Lemma child_fails : forall p l t a d1 u ns q r n tab nd ht z, qnamed E p l -> atts E t a d1 -> resolves (rev d1 ++ ns) (utf8 p) u ->
  oks S z -> scoped ns tab -> NoDup (map fst (tab ++ d1)) -> has_prefix (s_ "/>") (q ++ r) = false ->
  (List.length t < n)%nat ->
  (forall ht', fails (inner n) (st (q ++ r) (tab ++ d1) ((utf8 l, utf8 p, u) :: nd) ht' z)) ->
  fails (parseElement E S H n (parseContent E S H n)) (st (s_ "<" ++ qname p l ++ t ++ s_ ">" ++ q ++ r) tab nd ht z).
Proof.
  intros p l t a d1 u ns q r n tab nd ht z Hq Ht Hr [Z1 Z2] Hsc Hnd Hp Hn Hin. unfold parseElement.
  destruct (deliver_any (the_view S z) [EStartElement (utf8 l) (utf8 p) u (map Some d1) a] ht) as [h1 Hd1].
  eapply fails_bind2.
  { apply wrap_ret. apply (parseStartTag_st E OK S H n p l t a d1 u ns false (q ++ r) tab nd ht h1 z); eauto. }
  cbn [left]. eapply fails_bind2; [apply lift_st; reflexivity|]. rewrite Hp. apply Hin.
Qed.

Lemma inside_fails : forall ns q names d evs, inside E ns q names d evs -> forall r, joint evs r ->
  forall n tab nd ht z, oks S z -> scoped ns tab -> NoDup (map fst (tab ++ d)) -> ~ In [] (map fst d) ->
  (List.length (q ++ r) < n)%nat ->
  (forall nodes m ht', map (fun x => runes_of (nodeName x)) nodes = names -> (List.length r < m)%nat ->
     fails (inner m) (st r (tab ++ d) (nodes ++ nd) ht' z)) ->
  fails (inner n) (st (q ++ r) tab nd ht z).
Proof.
  intros ns q names d evs Hin. induction Hin as [ns c evs d Hc|ns c evs0 d p l t a d1 u q names d2 evs Hc Hq Ht Hr Hi IH Hsl];
  intros r Hj n tab nd ht z Hz Hsc Hnd Hd Hn Hbad.
  - destruct (prefix_st ns c evs d Hc n r tab nd ht z Hj Hz Hsc Hnd Hd Hn) as (m & ht' & M1 & M2).
    destruct (Hbad [] m ht' eq_refl M1) as [e He]. exists e. rewrite <- He. unfold inner, bind, wrap. rewrite M2. reflexivity.
  - rewrite <- !app_assoc in *. assert (Hnd1 : NoDup (map fst (tab ++ d))).
    { rewrite app_assoc, map_app in Hnd. apply NoDup_app_l in Hnd. exact Hnd. }
    assert (Hdd : ~ In [] (map fst d)) by (intros Hx; apply Hd; rewrite map_app; apply in_or_app; auto).
    assert (Hdd2 : ~ In [] (map fst d2)) by (intros Hx; apply Hd; rewrite !map_app; apply in_or_app; right; apply in_or_app; auto).
    set (rr := s_ "<" ++ qname p l ++ t ++ s_ ">" ++ q ++ r) in *.
    destruct (prefix_st ns c evs0 d Hc n rr tab nd ht z) as (m & ht' & M1 & M2); auto.
    { left. right. left. reflexivity. }
    apply inner_content. unfold fails. rewrite M2.
    assert (Hcont : fails (parseContent E S H m) (st rr (tab ++ d) nd ht' z)); [|exact Hcont].
    destruct m as [|m]; [lia|]. unfold fails. rewrite parseContent_step.
    destruct (qname_head E p l Hq) as (c0 & w & Hqn & Hc0).
    destruct (name_start_facts E OK c0 Hc0) as (C1 & C2 & C3 & C4 & C5 & C6 & C7).
    assert (Hrr : rr = 60 :: c0 :: (w ++ t ++ s_ ">" ++ q ++ r)) by (unfold rr; rewrite Hqn; reflexivity).
    pose proof (elem_prefix c0 (w ++ t ++ s_ ">" ++ q ++ r) C3 C6 C7) as Hpre. rewrite <- Hrr in Hpre.
    replace (done rr) with false by (rewrite Hrr; reflexivity).
    destruct Hpre as (-> & -> & -> & -> & ->).
    apply fails_bind, fails_wrap. rewrite !app_assoc in Hnd. rewrite <- (app_assoc tab d d1) in Hnd.
    assert (Hlen : (List.length t + List.length (q ++ r) < m)%nat).
    { unfold rr in M1. rewrite !app_length in *. lens. lia. }
    assert (Hsc' : scoped ns (tab ++ d)) by (apply scoped_after; auto; eapply content_values; eauto).
    assert (Hnd3 : NoDup (map fst ((tab ++ d) ++ d1))).
    { rewrite map_app in Hnd. apply NoDup_app_l in Hnd. rewrite <- app_assoc. exact Hnd. }
    apply (child_fails p l t a d1 u ns); auto; [|lia|].
    { apply no_slash_gt; auto. eapply joint_head; eauto. }
    intros h2. apply IH; auto.
    { apply scoped_inner; auto. eapply atts_values; eauto. }
    { rewrite <- (app_assoc tab d d1). exact Hnd. }
    { lia. }
    intros nodes m' h3 Hnames Hm'. rewrite <- !app_assoc.
    specialize (Hbad (nodes ++ [(utf8 l, utf8 p, u)]) m' h3). rewrite map_app in Hbad. cbn [map] in Hbad.
    rewrite (nodeName_q E p l u Hq), Hnames in Hbad. specialize (Hbad eq_refl Hm'). rewrite <- app_assoc in Hbad. exact Hbad.
Qed.

(* ---- what is wrong is refused ---- *)
Lemma bad_joint : forall name d evs r, bad E name d evs r -> joint evs r.
Proof.
  intros name d evs r Hb. destruct Hb; try (left; right; left; reflexivity); try (left; left; reflexivity).
  - left; right; right. destruct hex; reflexivity.
  - left; right; right. destruct hex; reflexivity.
  - right. split; [auto|]. destruct t; auto.
  - right. split; [auto|]. destruct t; auto.
Qed.
Lemma content_item_fails : forall n l tab nd ht z, (0 < n)%nat -> done l = false ->
  (forall m, n = Datatypes.S m -> fails ((if has_prefix (s_ "</") l then ret S tt
         else if has_prefix (s_ "<?") l then bind S (wrap S (parsePI E S H)) (fun _ => parseContent E S H m)
         else if has_prefix (s_ "<![CDATA[") l then bind S (wrap S (parseCDSect E S H)) (fun _ => parseContent E S H m)
         else if has_prefix (s_ "<!--") l then bind S (wrap S (parseComment E S H)) (fun _ => parseContent E S H m)
         else if has_prefix (s_ "<") l then bind S (wrap S (parseElement E S H m (parseContent E S H m))) (fun _ => parseContent E S H m)
         else if has_prefix (s_ "&") l then bind S (wrap S (parseReference E S H (parseContent E S H m))) (fun _ => parseContent E S H m)
         else bind S (parseCharData E S H false) (fun _ => parseContent E S H m))) (st l tab nd ht z)) ->
  fails (inner n) (st l tab nd ht z).
Proof.
  intros n l tab nd ht z Hn Hd Hf. apply inner_content. destruct n as [|n]; [lia|]. unfold fails. rewrite parseContent_step, Hd. apply Hf; auto.
Qed.

Lemma end_fails : forall n x tab node nd ht z, (0 < n)%nat -> (forall y, x <> runes_of (nodeName node) ++ s_ ">" ++ y) ->
  fails (inner n) (st (s_ "</" ++ x) tab (node :: nd) ht z).
Proof.
  intros n x tab node nd ht z Hn Hx. unfold inner.
  eapply fails_bind2. { apply wrap_ret. apply parseContent_stop; [right; reflexivity|auto]. }
  apply fails_wrap. unfold parseEndTag.
  eapply fails_bind2; [apply mconsume_not_st; reflexivity|]. eapply fails_bind2; [reflexivity|]. cbn [Complete.st nodeTab].
  apply fails_bind. eapply fails_bind2; [apply mconsume_st|]. cbn [negb].
  destruct (has_prefix (runes_of (nodeName node)) x) eqn:Hp.
  - apply has_prefix_true in Hp as [y ->]. eapply fails_bind2; [apply mconsume_st|]. cbn [negb].
    destruct y as [|c y].
    + eapply fails_bind2; [apply lift_st; reflexivity|]. cbn [peek hd].
      replace (negb (eofr E =? 62)) with true by (destruct (ok_eofr E OK) as [-> | ->]; reflexivity). eexists; reflexivity.
    + eapply fails_bind2; [apply mpeek_st|]. destruct (Z.eqb_spec c 62) as [->|Hc]; [exfalso; apply (Hx y); reflexivity|]. eexists; reflexivity.
  - eapply fails_bind2; [apply mconsume_not_st; exact Hp|]. eexists; reflexivity.
Qed.

Lemma charDataLoop_stop : forall t c x, legals t -> ~ In 60 t -> ~ In 38 t -> ~ contains (s_ "]]>") t -> legal c = false ->
  charDataLoop E false (t ++ c :: x) = CDOk t.
Proof.
  induction t as [|y t IH]; intros c x Hl H1 H2 H3 Hc.
  - cbn [app charDataLoop]. destruct (c =? 0); [reflexivity|]. rewrite legal_is in Hc. rewrite Hc. cbn [negb andb orb].
    rewrite !orb_true_r. reflexivity.
  - inversion Hl as [|? ? Hy Hl']; subst. cbn [app charDataLoop]. pose proof (legal_not0 y Hy).
    destruct (Z.eqb_spec y 0); [contradiction|]. rewrite legal_is in Hy. rewrite Hy.
    destruct (Z.eqb_spec y 60); [subst; exfalso; apply H1; left; auto|]. destruct (Z.eqb_spec y 38); [subst; exfalso; apply H2; left; auto|].
    cbn [negb andb orb].
    replace ((y =? 93) && (peekn E 1 (t ++ c :: x) =? 93) && (peekn E 2 (t ++ c :: x) =? 62)) with false.
    2:{ symmetry. destruct (Z.eqb_spec y 93); [subst y|reflexivity]. cbn [andb]. unfold peekn. cbn [pred].
        destruct t as [|a [|b t]]; cbn [app nth].
        - destruct (Z.eqb_spec c 93); [subst; discriminate|reflexivity].
        - destruct (Z.eqb_spec c 62); [subst; discriminate|]. apply andb_false_r.
        - destruct (Z.eqb_spec a 93); [|reflexivity]. destruct (Z.eqb_spec b 62); [|reflexivity]. subst. exfalso. apply H3. exists [], t. reflexivity. }
    rewrite IH; auto.
    + intros Hi; apply H1; right; auto.
    + intros Hi; apply H2; right; auto.
    + apply contains_cons with y; auto.
Qed.
Lemma text_head : forall c w, c <> 60 -> c <> 38 -> forall A (x1 x2 x3 x4 x5 x6 y : A),
  (if has_prefix (s_ "</") (c :: w) then x1 else if has_prefix (s_ "<?") (c :: w) then x2 else
   if has_prefix (s_ "<![CDATA[") (c :: w) then x3 else if has_prefix (s_ "<!--") (c :: w) then x4 else
   if has_prefix (s_ "<") (c :: w) then x5 else if has_prefix (s_ "&") (c :: w) then x6 else y) = y.
Proof.
  intros c w C1 C2 A x1 x2 x3 x4 x5 x6 y. cbn [s_ has_prefix]. cbn.
  destruct (Z.eqb_spec 60 c); [congruence|]. destruct (Z.eqb_spec 38 c); [congruence|]. reflexivity.
Qed.
Lemma illegal_fails : forall n c x tab nd ht z, (0 < n)%nat -> legal c = false ->
  fails (parseContent E S H n) (st (c :: x) tab nd ht z).
Proof.
  intros n c x tab nd ht z Hn Hc. destruct n as [|n]; [lia|]. unfold fails. rewrite parseContent_step. cbn [done].
  rewrite text_head by (intros ->; discriminate). apply fails_bind. unfold parseCharData. apply fails_bind. apply fails_lift.
  unfold scanCharData. change (c :: x) with ([] ++ c :: x). rewrite (charDataLoop_stop [] c x); [eexists; reflexivity|constructor|intros []|intros []|intros (a & b & Hab); destruct a; discriminate|auto].
Qed.
Lemma tag_prefix : forall c w A (x1 x2 x3 x4 x5 x6 y : A), c <> 47 -> c <> 63 -> c <> 33 ->
  (if has_prefix (s_ "</") (60 :: c :: w) then x1 else if has_prefix (s_ "<?") (60 :: c :: w) then x2 else
   if has_prefix (s_ "<![CDATA[") (60 :: c :: w) then x3 else if has_prefix (s_ "<!--") (60 :: c :: w) then x4 else
   if has_prefix (s_ "<") (60 :: c :: w) then x5 else if has_prefix (s_ "&") (60 :: c :: w) then x6 else y) = x5.
Proof. intros c w A x1 x2 x3 x4 x5 x6 y C1 C2 C3. destruct (elem_prefix c w C1 C2 C3) as (-> & -> & -> & -> & ->). reflexivity. Qed.

Lemma bad_fails : forall name d evs r, bad E name d evs r -> forall n node nd ht z, oks S z ->
  runes_of (nodeName node) = name -> (List.length r < n)%nat -> fails (inner n) (st r d (node :: nd) ht z).
Proof.
  intros name d evs r Hb n node nd ht z Hz Hname Hn.
  destruct Hb as [x Hx| |b c x Hb Hc H62|c x Hc|hex b Hx Hin Hnum|hex b v x Hnum Hv Hxc|t c x Ht Hf Hh1 Hh2 Hc|t x Ht Hcont Hf Hh1 Hh2
    |p l t a d1 e x Hp Hl Ht Hnd Hin|c x Hc C0 C1 C2 C3].
  - apply end_fails; [cbn in Hn; lia|]. rewrite Hname. auto.
  - unfold inner. eapply fails_bind2. { apply wrap_ret. apply parseContent_stop; [left; reflexivity|lia]. }
    apply fails_wrap. unfold parseEndTag.
    eapply fails_bind2; [apply mconsume_not_st; reflexivity|]. eapply fails_bind2; [reflexivity|]. cbn [Complete.st nodeTab].
    apply fails_bind. eapply fails_bind2; [apply mconsume_not_st; reflexivity|]. eexists; reflexivity.
  - apply content_item_fails; [lia|reflexivity|]. intros m Hm.
    match goal with |- fails ?a ?s => change (fails (bind S (wrap S (parseComment E S H)) (fun _ => parseContent E S H m)) s) end.
    apply fails_bind, fails_wrap. unfold parseComment. apply fails_bind, fails_lift.
    eexists. apply (scanComment_bad E b c x); [apply comment_text_body; auto|apply legals_is, Hb|rewrite <- legal_is; auto|auto].
  - apply content_item_fails; [lia|reflexivity|]. intros m Hm.
    match goal with |- fails ?a ?s => change (fails (bind S (wrap S (parsePI E S H)) (fun _ => parseContent E S H m)) s) end.
    apply fails_bind, fails_wrap. unfold parsePI. apply fails_bind, fails_lift.
    destruct (scanPI_xml E (c :: x) OK) as (e & l' & He); [|rewrite He; eexists; reflexivity].
    assert (Hcc : c = 32 \/ c = 9 \/ c = 10 \/ c = 13 \/ c = 63) by (unfold blank in Hc; lia).
    unfold nameRest. rewrite (ok_letter E OK), (ok_digit E OK), ?(ok_ext E OK) by lia.
    destruct Hcc as [->|[->|[->|[->| ->]]]]; (split; [reflexivity|discriminate]).
  - apply content_item_fails; [lia|destruct hex; reflexivity|]. intros m Hm.
    destruct (charref_bad E hex b Hx Hin Hnum) as (e & l' & He).
    match goal with |- fails ?a (st ?l ?t ?q ?h ?s0) =>
      replace (fails a (st l t q h s0)) with (fails (bind S (wrap S (parseReference E S H (parseContent E S H m))) (fun _ => parseContent E S H m)) (st l t q h s0)) by (destruct hex; reflexivity) end.
    apply fails_bind, fails_wrap. unfold parseReference.
    eapply fails_bind2; [apply (mpeek_eq E S _ 38 (tl (refPrefix hex ++ b))); destruct hex; reflexivity|]. cbv iota. change (negb (38 =? 38)) with false. cbv iota.
    eapply fails_bind2; [apply lift_st; reflexivity|]. replace (peekn E 2 (refPrefix hex ++ b) =? 35) with true by (destruct hex; reflexivity).
    apply fails_bind, fails_wrap, fails_lift. rewrite He. eexists; reflexivity.
  - apply content_item_fails; [lia|destruct hex; reflexivity|]. intros m Hm.
    match goal with |- fails ?a (st ?l ?t ?q ?h ?s0) =>
      replace (fails a (st l t q h s0)) with (fails (bind S (wrap S (parseReference E S H (parseContent E S H m))) (fun _ => parseContent E S H m)) (st l t q h s0)) by (destruct hex; reflexivity) end.
    apply fails_bind, fails_wrap. unfold parseReference.
    eapply fails_bind2; [apply (mpeek_eq E S _ 38 (tl (refPrefix hex ++ b))); destruct hex; reflexivity|]. cbv iota. change (negb (38 =? 38)) with false. cbv iota.
    eapply fails_bind2; [apply lift_st; reflexivity|]. replace (peekn E 2 (refPrefix hex ++ b) =? 35) with true by (destruct hex; reflexivity).
    apply fails_bind, fails_wrap, fails_lift. rewrite (charref_value E hex b v x Hnum). rewrite int32_small by lia.
    rewrite isChar_spec, Hxc. eexists; reflexivity.
  - apply inner_content. destruct Ht as [->|Ht]; [apply illegal_fails; auto; lia|].
    destruct Ht as (T0 & T1 & T2 & T3 & T4). destruct t as [|y t]; [congruence|]. destruct n as [|n]; [lia|].
    unfold fails. rewrite parseContent_step. cbn [app done].
    assert (Y1 : y <> 60) by (intros ->; apply T2; left; auto). assert (Y2 : y <> 38) by (intros ->; apply T3; left; auto).
    rewrite text_head by auto.
    assert (Hscan : lift S (scanCharData E false) (st ((y :: t) ++ c :: x) d (node :: nd) ht z) = (Ret (utf8 (crlf (y :: t))), st (c :: x) d (node :: nd) ht z)).
    { apply lift_st. unfold scanCharData. rewrite charDataLoop_stop by auto. rewrite crlf_utf8, advance_app. reflexivity. }
    change (y :: t ++ c :: x) with ((y :: t) ++ c :: x).
    set (u := utf8 (crlf (y :: t))) in *. set (s1 := st (c :: x) d (node :: nd) ht z) in *.
    set (bb := match fst (areBlanks E S H u s1) with Ret v => v | _ => false end).
    assert (Hbb : areBlanks E S H u s1 = (Ret bb, s1)) by reflexivity.
    destruct (deliver_any (the_view S z) [if bb then EIgnorableWhitespace u else ECharacters u] ht) as [h1 Hd1].
    assert (Hcd : parseCharData E S H false (st ((y :: t) ++ c :: x) d (node :: nd) ht z) = (Ret tt, st (c :: x) d (node :: nd) h1 z)).
    { unfold parseCharData. rewrite (bind_ret S _ _ _ _ _ _ _ Hscan), (bind_ret S _ _ _ _ _ _ _ Hbb). destruct bb; apply emit_st; auto. }
    eapply fails_bind2; [exact Hcd|]. apply illegal_fails; auto. cbn in Hn. rewrite app_length in Hn. cbn in Hn. lia.
  - apply inner_content. destruct n as [|n]; [lia|]. unfold fails. rewrite parseContent_step.
    assert (Hl : legals t /\ ~ In 60 t /\ ~ In 38 t /\ ~ contains (s_ "]]>") t).
    { destruct Ht as [->|(T0 & T1 & T2 & T3 & T4)]; [|auto]. repeat split; try (intros []; fail); [constructor|]. intros (q & w & Hq). destruct q; discriminate. }
    destruct Hl as (T1 & T2 & T3 & T4).
    replace (done (t ++ s_ "]]>" ++ x)) with false by (destruct t; reflexivity).
    assert (Hhead : exists y w, t ++ s_ "]]>" ++ x = y :: w /\ y <> 60 /\ y <> 38).
    { destruct t as [|y t]; [exists 93, (s_ "]>" ++ x); split; [reflexivity|split; discriminate]|]. exists y, (t ++ s_ "]]>" ++ x).
      split; [reflexivity|]. split; intros ->; [apply T2|apply T3]; left; auto. }
    destruct Hhead as (y & w & Heq & Y1 & Y2). set (src := t ++ s_ "]]>" ++ x) in *. rewrite Heq. rewrite text_head by auto. rewrite <- Heq. unfold src.
    apply fails_bind. unfold parseCharData. apply fails_bind, fails_lift. unfold scanCharData. rewrite charDataLoop_bad by auto. eexists; reflexivity.
  - assert (Hq : qnamed E p l) by (split; auto). destruct (qname_head E p l Hq) as (c0 & w & Hqn & Hc0).
    destruct (name_start_facts E OK c0 Hc0) as (C1 & C2 & C3 & C4 & C5 & C6 & C7).
    assert (Hrr : s_ "<" ++ qname p l ++ t ++ (if e then s_ "/>" else s_ ">") ++ x = 60 :: qname p l ++ t ++ tail e x) by (destruct e; reflexivity).
    rewrite Hrr in *. apply content_item_fails; [lia|reflexivity|]. intros m Hm. set (src := qname p l ++ t ++ tail e x) in *. assert (Hsrc : src = c0 :: w ++ t ++ tail e x) by (unfold src; rewrite Hqn; reflexivity).
    rewrite Hsrc. rewrite tag_prefix by auto. rewrite <- Hsrc.
    apply fails_bind, fails_wrap. unfold parseElement. apply fails_bind, fails_wrap. unfold parseStartTag.
    eapply fails_bind2; [apply mpeek_st|]. rewrite Z.eqb_refl. cbn [negb]. eapply fails_bind2; [apply madv1_st|].
    destruct (tag_name_end E OK t a d1 e x Ht) as [N1 N2].
    unfold src.
    eapply fails_bind2. { apply lift_st. unfold por_else. rewrite (parseQName_app E OK p l); auto. }
    cbv beta iota. assert (Hle : utf8 l <> []). { apply utf8_ne. destruct l; [destruct Hl as [[] _]|discriminate]. }
    destruct (utf8 l) as [|l0 lr] eqn:Hul; [congruence|]. rewrite <- Hul in *.
    eapply fails_bind2. { apply (atts_st E OK S H t a d1 Ht); auto; [apply Hz|]. unfold src in Hn. cbn [List.length] in Hn. rewrite !app_length in Hn. lia. }
    cbv beta iota. eapply fails_bind2; [reflexivity|]. cbv zeta. eapply fails_bind2; [reflexivity|]. cbn [Complete.st nsTab].
    rewrite (lookupNS_absent (d ++ d1) (utf8 p) Hin).
    replace (negb (str_eqb (utf8 p) []) && str_eqb [] []) with true; [eexists; reflexivity|].
    rewrite str_eqb_nil; [reflexivity|]. apply utf8_ne. destruct p; [destruct Hp as [[] _]|discriminate].
  - apply content_item_fails; [lia|reflexivity|]. intros m Hm. rewrite tag_prefix by auto.
    apply fails_bind, fails_wrap. unfold parseElement. apply fails_bind, fails_wrap. unfold parseStartTag.
    eapply fails_bind2; [apply mpeek_st|]. rewrite Z.eqb_refl. cbn [negb]. eapply fails_bind2; [apply madv1_st|].
    apply fails_bind, fails_lift.
    assert (Hnc : parseNCName E (c :: x) = (Fail (PErr (Plain "invalid name start char")), c :: x)).
    { unfold parseNCName, scanName. cbn [peek hd]. unfold name_start in Hc. unfold isNameStartChar. rewrite Hc. destruct (Z.eqb_spec c 58); [contradiction|]. cbn [negb orb]. rewrite orb_true_r. reflexivity. }
    unfold por_else, parseQName. erewrite pbind_eq by (unfold ptry; rewrite Hnc; reflexivity). cbv beta iota.
    erewrite pbind_eq by reflexivity. cbn [peek hd]. destruct (Z.eqb_spec c 58) as [Hc58|H58]; [contradiction|]; cbn [negb].
    assert (Hpn : parseName E (c :: x) = (Fail (PErr (Plain "invalid first letter")), c :: x)).
    { unfold parseName, scanName. cbn [peek hd]. unfold name_start in Hc. destruct (isLetter E c), (c =? 95) eqn:H95; try discriminate.
      destruct (Z.eqb_spec c 58); [contradiction|]. cbn [negb orb]. rewrite orb_true_r. reflexivity. }
    unfold pbind, por_else. rewrite Hpn. eexists; reflexivity.
Qed.

(* ---- from the beginning of the document ---- *)
Definition valids (l : list Z) : Prop := Forall (fun c => valid_rune c = true) l.
(* what parseDocument does from the root element on *)
Definition after (n : nat) : M S unit :=
  bind S (mpeek E S) (fun c =>
    if negb (c =? 60) then failw S "ErrEmptyDocument"
    else
      bind S (wrap S (parseElement E S H n (parseContent E S H n))) (fun _ =>
      bind S (wrap S (parseMisc E S H n)) (fun _ =>
      bind S (mdone S) (fun fin =>
      if negb fin then failw S "ErrDocumentEnd"
      else emit S H EEndDocument)))).

Definition first_ok (m body : list Z) : Prop := (m <> [] /\ hd 1 body <> 0) \/ exists c w, body = 60 :: c :: w /\ name_start E c = true.
Definition startable (body : list Z) : Prop := nomisc body /\ has_prefix (s_ "<!DOCTYPE") body = false.
Lemma startable_tag : forall c w, name_start E c = true -> startable (60 :: c :: w).
Proof.
  intros c w Hc. destruct (name_start_facts E OK c Hc) as (C1 & C2 & C3 & C4 & C5 & C6 & C7). split; [apply nomisc_tag; auto|].
  cbn. destruct (Z.eqb_spec 33 c); [congruence|reflexivity].
Qed.

Lemma rest_after : forall m e body n ht z, misc E m e -> startable body -> (List.length (m ++ body) < n)%nat ->
  exists ht', rest E S H n (st (m ++ body) [] [] ht z) = after n (st body [] [] ht' z).
Proof.
  intros m e body n ht z Hm [Hb1 Hb2] Hn.
  destruct (deliver_any (the_view S z) [EStartDocument] ht) as [h1 Hd1].
  destruct (deliver_any (the_view S z) e h1) as [h2 Hd2]. exists h2. unfold rest.
  erewrite bind_ret by (apply emit_st; exact Hd1).
  erewrite bind_ret. 2:{ apply wrap_ret. eapply (misc_st E OK S H (List.length m) m e); eauto. }
  erewrite bind_ret by (apply lift_st; reflexivity). rewrite Hb2. erewrite bind_ret by reflexivity.
  destruct (mskip0_st S body [] [] h2 z) as [w Hw]; [apply Hb1|]. erewrite bind_ret by exact Hw. reflexivity.
Qed.

Lemma no_decl : forall m e body, misc E m e -> startable body -> (forall r, m <> s_ "<?xml" ++ r) -> has_prefix (s_ "<?xml") (m ++ body) = false.
Proof.
  intros m e body Hm [(_ & Hq & _) _] Hnx. destruct (has_prefix (s_ "<?xml") (m ++ body)) eqn:Hp; [|reflexivity]. exfalso.
  destruct Hm; cbn [app] in Hp.
  - apply has_prefix_true in Hp as [r Hp]. rewrite Hp in Hq. discriminate.
  - cbn in Hp. unfold blank in H0. destruct (Z.eqb_spec 60 c); [lia|discriminate].
  - discriminate.
  - apply prefix_split in Hp; [destruct Hp as [r Hp]; apply (Hnx r); auto|]. rewrite !app_length. lens.
    destruct t as [|w t]; [destruct H0 as [[[] _] _]|cbn; lia].
  - apply prefix_split in Hp; [destruct Hp as [r Hp]; apply (Hnx r); auto|]. rewrite !app_length. lens.
    destruct t as [|w t]; [destruct H0 as [[[] _] _]|cbn; lia].
Qed.
Lemma name_start_ne0 : forall c, name_start E c = true -> c <> 0.
Proof. intros c Hc ->. unfold name_start in Hc. rewrite (ok_letter E OK) in Hc by lia. discriminate. Qed.
Lemma misc_hd : forall m e body, misc E m e -> hd 1 body <> 0 -> hd 1 (m ++ body) <> 0.
Proof. intros m e body Hm Hb. destruct Hm; cbn; try discriminate; auto. intros ->. discriminate. Qed.
Lemma first_chars : forall m e body, misc E m e -> first_ok m body ->
  exists c l, m ++ body = c :: l /\ (c = 60 \/ blank c = true) /\ hd 1 l <> 0.
Proof.
  intros m e body Hm Hf. destruct Hm.
  - destruct Hf as [[Hf _]|(c & w & -> & Hc)]; [congruence|]. exists 60, (c :: w). split; [reflexivity|]. split; [auto|]. 
    apply name_start_ne0; auto.
  - eexists c, _. split; [reflexivity|]. split; [auto|]. eapply misc_hd; eauto.
    destruct Hf as [[_ Hf]|(c' & w & -> & Hc)]; [auto|discriminate].
  - eexists 60, _. split; [reflexivity|]. split; [auto|]. discriminate.
  - eexists 60, _. split; [reflexivity|]. split; [auto|]. discriminate.
  - eexists 60, _. split; [reflexivity|]. split; [auto|]. discriminate.
Qed.
Lemma utf8_hd : forall l, hd 1 l <> 0 -> hd 1 (utf8 l) <> 0.
Proof.
  intros [|x l] Hl; [discriminate|]. unfold utf8. cbn [flat_map]. pose proof (encode_nonempty x).
  destruct (encode_rune x) as [|b w] eqn:Hx; [congruence|]. cbn [app hd]. intros ->. apply Hl. cbn.
  assert (Hi : In 0 (encode_rune x)) by (rewrite Hx; left; auto). apply encode_high in Hi as [_ Hi]; lia.
Qed.

Lemma before_parse : forall b, before_root E b -> forall body bom n h, bom_ok bom -> valids body -> startable body ->
  first_ok b body -> (List.length (b ++ body) < n)%nat ->
  exists ht z, oks S z /\ Parse E S H n h (bom ++ utf8 (b ++ body)) = after n (st body [] [] ht z).
Proof.
  intros b Hb body bom n h Hbom Hv Hs Hf Hn. destruct (deliver_any view0 [ESetDocumentLocator] (h, [])) as [h1 Hd0].
  destruct Hb as [m e Hm Hnx|hdr v enc sa m e Hx Henc Hm].
  - set (i := {| di_version := []; di_encoding := None; di_standalone := None |}).
    assert (Hv' : valids (m ++ body)) by (apply Forall_app; split; [apply legals_valid; eapply misc_legal; eauto|auto]).
    pose proof (parseDocument_eq E OK S H [] (m ++ body) i bom n h h1 Hbom Hd0 Hv') as Hp. cbn [app] in Hp. rewrite Hp.
    2:{ left. split; [auto|]. split; [auto|]. split.
        - destruct (has_prefix (s_ "<?xml") (utf8 (m ++ body))) eqn:Hq; [|reflexivity].
          apply prefix_utf8 in Hq; [|repeat constructor; lia]. rewrite (no_decl m e body) in Hq; auto.
        - destruct (first_chars m e body Hm Hf) as (c & l & Heq & Hc & Hl). rewrite Heq. exists c, (utf8 l).
          split; [unfold utf8; cbn [flat_map]; rewrite encode_ascii by (unfold blank in Hc; lia); reflexivity|].
          split; [auto|]. apply utf8_hd; auto. }
    destruct (rest_after m e body n h1 (zof S i h (bom ++ utf8 (m ++ body))) Hm Hs Hn) as [ht' Hr].
    exists ht', (zof S i h (bom ++ utf8 (m ++ body))). split; [split; reflexivity|]. exact Hr.
  - set (i := {| di_version := v; di_encoding := enc; di_standalone := sa |}).
    assert (Hv' : valids (m ++ body)) by (apply Forall_app; split; [apply legals_valid; eapply misc_legal; eauto|auto]).
    pose proof (parseDocument_eq E OK S H hdr (m ++ body) i bom n h h1 Hbom Hd0 Hv') as Hp. rewrite <- app_assoc in *. rewrite Hp.
    2:{ right. split; auto. }
    rewrite app_length in Hn. destruct (rest_after m e body n h1 (zof S i h (bom ++ utf8 (hdr ++ m ++ body))) Hm Hs) as [ht' Hr]; [lia|].
    eexists ht', (zof S i h (bom ++ utf8 (hdr ++ m ++ body))). split; [split; reflexivity|]. exact Hr.
Qed.

(* a document wrong at some place inside the root is refused *)
Theorem place_refused : forall src name d evs r, place E src name d evs -> bad E name d evs r -> valids r ->
  forall bom n h, bom_ok bom -> (List.length (src ++ r) < n)%nat ->
  exists e, fst (Parse E S H n h (bom ++ utf8 (src ++ r))) = Fail e.
Proof.
  intros src name d evs r Hpl Hbad Hv bom n h Hbom Hn.
  destruct Hpl as [b p l t a d u q names d2 evs Hb Hq Ht Hr Hin Hsl Hnd Hd2].
  pose proof (bad_joint _ _ _ _ Hbad) as Hj.
  destruct (qname_head E p l Hq) as (c0 & w & Hqn & Hc0).
  set (body := s_ "<" ++ qname p l ++ t ++ s_ ">" ++ q ++ r).
  assert (Hbody : body = 60 :: c0 :: w ++ t ++ s_ ">" ++ q ++ r) by (unfold body; rewrite Hqn; reflexivity).
  replace ((b ++ s_ "<" ++ qname p l ++ t ++ s_ ">" ++ q) ++ r) with (b ++ body) in * by (unfold body; rewrite <- !app_assoc; reflexivity).
  assert (Hlq : legals q).
  { clear - OK Hin. induction Hin; [eapply content_legal; eauto|].
    apply legals_app; [eapply content_legal; eauto|]. apply legals_app; [repeat constructor|]. apply legals_app; [eapply qname_legal; eauto|].
    apply legals_app; [eapply atts_legal; eauto|]. apply legals_app; [repeat constructor|auto]. }
  destruct (before_parse b Hb body bom n h Hbom) as (ht & z & Hz & Hp); auto.
  { unfold body. apply Forall_app; split; [repeat constructor|]. apply Forall_app; split; [apply legals_valid; eapply qname_legal; eauto|].
    apply Forall_app; split; [apply legals_valid; eapply atts_legal; eauto|]. apply Forall_app; split; [repeat constructor|].
    apply Forall_app; split; [apply legals_valid; auto|auto]. }
  { rewrite Hbody. apply startable_tag; auto. }
  { right. rewrite Hbody. eauto. }
  rewrite Hp. unfold after.
  eapply fails_bind2; [eapply mpeek_eq; exact Hbody|]. change (negb (60 =? 60)) with false. cbv iota.
  apply fails_bind, fails_wrap. unfold body in *. rewrite !app_length in Hn. lens.
  assert (Hnd1 : NoDup (map fst ([] ++ d))). { rewrite map_app in Hnd. apply NoDup_app_l in Hnd. exact Hnd. }
  assert (Hr0 : resolves (rev d ++ []) (utf8 p) u) by (rewrite app_nil_r; auto).
  apply (child_fails p l t a d u []); auto; [apply scoped_nil| |lia|].
  { apply no_slash_gt; auto. eapply joint_head; eauto. }
  intros h2. cbn [app]. pose proof (scoped_inner [] [] d scoped_nil Hnd1 (atts_values E t a d Ht)) as Hsc. rewrite app_nil_r in Hsc. cbn [app] in Hsc.
  apply (inside_fails _ _ _ _ _ Hin r Hj); auto; [rewrite app_length; lia|].
  intros nodes m h3 Hnames Hm. destruct nodes as [|x nodes].
  - cbn [map] in Hnames. subst names. cbn [hd] in Hbad. cbn [app]. eapply bad_fails; eauto. apply (nodeName_q E); auto.
  - cbn [map] in Hnames. subst names. cbn [hd] in Hbad. cbn [app]. eapply bad_fails; eauto.
Qed.

(* so is one where the root is missing, or followed by anything but misc *)
Theorem no_root_refused : forall b body, before_root E b -> startable body -> first_ok b body -> hd 0 body <> 60 -> valids body ->
  forall bom n h, bom_ok bom -> (List.length (b ++ body) < n)%nat ->
  exists e, fst (Parse E S H n h (bom ++ utf8 (b ++ body))) = Fail e.
Proof.
  intros b body Hb Hs Hf H60 Hv bom n h Hbom Hn.
  destruct (before_parse b Hb body bom n h Hbom Hv Hs Hf Hn) as (ht & z & Hz & Hp). rewrite Hp. unfold after.
  eapply fails_bind2; [apply lift_st; reflexivity|]. replace (negb (peek E body =? 60)) with true; [eexists; reflexivity|].
  destruct body as [|c w]; cbn [peek hd] in *.
  - destruct (ok_eofr E OK) as [-> | ->]; reflexivity.
  - destruct (Z.eqb_spec c 60); [contradiction|reflexivity].
Qed.
Theorem second_root_refused : forall b x evs d m e r, before_root E b -> element E [] x evs d -> declared_once evs d -> misc E m e ->
  nomisc r -> r <> [] -> valids r ->
  forall bom n h, bom_ok bom -> (List.length (b ++ x ++ m ++ r) < n)%nat ->
  exists e, fst (Parse E S H n h (bom ++ utf8 (b ++ x ++ m ++ r))) = Fail e.
Proof.
  intros b x evs d m e r Hb Hx Hone Hm Hr Hne Hv bom n h Hbom Hn.
  destruct (elem_head E _ _ _ _ Hx) as (c & t & Hxc & Hc).
  destruct (before_parse b Hb (x ++ m ++ r) bom n h Hbom) as (ht & z & Hz & Hp); auto.
  { repeat (apply Forall_app; split); auto; apply legals_valid; [eapply element_legal; eauto|eapply misc_legal; eauto]. }
  { rewrite Hxc. apply startable_tag; auto. }
  { right. rewrite Hxc. eexists c, _. split; [reflexivity|auto]. }
  rewrite Hp. unfold after.
  eapply fails_bind2; [eapply mpeek_eq; rewrite Hxc; reflexivity|]. change (negb (60 =? 60)) with false. cbv iota.
  rewrite !app_length in Hn.
  destruct (runs_any _ _ _ _ (root_st E OK S H x evs d Hx Hone n (m ++ r) [] ht z Hz ltac:(rewrite !app_length; lia))) as [h1 Hel].
  eapply fails_bind2; [apply wrap_ret; exact Hel|].
  destruct (deliver_any (the_view S z) e h1) as [h2 Hd2].
  eapply fails_bind2. { apply wrap_ret. eapply (misc_st E OK S H (List.length m) m e); eauto. rewrite app_length. lia. }
  eapply fails_bind2; [reflexivity|]. cbn [Complete.st inp]. destruct r as [|y r]; [congruence|]. eexists; reflexivity.
Qed.
End R.
