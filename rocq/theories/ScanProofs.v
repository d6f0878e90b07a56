(* General facts about the scanners of Scan.v: the shape of their errors, and
   that they only ever move forward in the input. *)
From Verif Require Import Base Utf8 Utf8Proofs Encoding Scan.

(* ---- errors have at most one layer of ErrParseError ---- *)
Definition flat (e : gerr) : bool := match e with PErr _ => false | _ => true end.
Definition shaped (e : gerr) : bool := match e with PErr e' => flat e' | _ => true end.
Definition wrapped (e : gerr) : bool := match e with PErr e' => flat e' | _ => false end.
Definition shape {A} (o : outcome gerr A) : Prop := match o with Fail e => shaped e = true | _ => True end.
(* no handler error comes out of a scanner *)
Definition nohandler (e : gerr) : bool :=
  match e with Plain _ => true | PErr (Plain _) => true | _ => false end.
Definition lexical {A} (o : outcome gerr A) : Prop := match o with Fail e => nohandler e = true | _ => True end.

Lemma nohandler_shaped : forall e, nohandler e = true -> shaped e = true.
Proof. intros [k|k|[k|k|e]]; simpl; intros; congruence. Qed.
Lemma nohandler_ctx : forall e, nohandler e = true -> nohandler (ctx_error e) = true.
Proof. intros [k|k|e]; simpl; auto. Qed.
Lemma shaped_ctx : forall e, shaped e = true -> wrapped (ctx_error e) = true.
Proof. intros [k|k|e]; simpl; auto. Qed.
Lemma wrapped_shaped : forall e, wrapped e = true -> shaped e = true.
Proof. intros [k|k|e]; simpl; auto. Qed.

Definition plex {A} (p : P A) : Prop := forall l, lexical (fst (p l)).
Definition suffix (l' l : list Z) : Prop := exists p, l = p ++ l'.
Definition psuf {A} (p : P A) : Prop := forall l, suffix (snd (p l)) l.

Lemma suffix_refl : forall l, suffix l l. Proof. intros; exists []; reflexivity. Qed.
Lemma suffix_trans : forall a b c, suffix a b -> suffix b c -> suffix a c.
Proof. intros a b c [p Hp] [q Hq]; exists (q ++ p); subst; rewrite app_assoc; auto. Qed.
Lemma suffix_skipn : forall n l, suffix (skipn n l) l.
Proof. intros; exists (firstn n l); symmetry; apply firstn_skipn. Qed.
Lemma suffix_cons : forall a b c, suffix a b -> suffix a (c :: b).
Proof. intros a b c [p Hp]; exists (c :: p); subst; auto. Qed.
Lemma suffix_length : forall a b, suffix a b -> (List.length a <= List.length b)%nat.
Proof. intros a b [p Hp]; subst; rewrite app_length; lia. Qed.
Lemma suffix_dropW : forall f l, suffix (dropW f l) l.
Proof. intros f; induction l; simpl. apply suffix_refl. destruct (f a). apply suffix_cons; auto. apply suffix_refl. Qed.
Lemma takeW_dropW : forall f l, takeW f l ++ dropW f l = l.
Proof. intros f; induction l; simpl; auto. destruct (f a); simpl; congruence. Qed.
Lemma takeW_all : forall f l, Forall (fun c => f c = true) (takeW f l).
Proof. intros f; induction l; simpl; auto. destruct (f a) eqn:E; auto. Qed.
Lemma dropW_head : forall f l, match dropW f l with [] => True | c :: _ => f c = false end.
Proof. intros f; induction l; simpl; auto. destruct (f a) eqn:E; auto. Qed.
Lemma dropW_skipn : forall f l, dropW f l = skipn (List.length (takeW f l)) l.
Proof. intros f; induction l; simpl; auto. destruct (f a); simpl; auto. Qed.
Lemma takeW_app : forall f a b, Forall (fun c => f c = true) a -> (match b with [] => True | c :: _ => f c = false end) ->
  takeW f (a ++ b) = a.
Proof. intros f a b Ha Hb; induction Ha; simpl. destruct b; simpl; auto. rewrite Hb; auto. rewrite H; congruence. Qed.
Lemma dropW_app : forall f a b, Forall (fun c => f c = true) a -> (match b with [] => True | c :: _ => f c = false end) ->
  dropW f (a ++ b) = b.
Proof. intros f a b Ha Hb; induction Ha; simpl. destruct b; simpl; auto. rewrite Hb; auto. rewrite H; congruence. Qed.

(* ---- combinators ---- *)
Lemma plex_ret : forall A (a : A), plex (pret a). Proof. intros A a l; exact I. Qed.
Lemma plex_fail : forall A e, nohandler e = true -> plex (@pfail A e). Proof. intros A e H l; exact H. Qed.
Lemma plex_failw : forall A k, plex (@pfailw A k). Proof. intros A k l; reflexivity. Qed.
Lemma plex_pan : forall A, plex (@ppan A). Proof. intros A l; exact I. Qed.
Lemma plex_oof : forall A, plex (@poof A). Proof. intros A l; exact I. Qed.
Lemma plex_bind : forall A B (p : P A) (f : A -> P B), plex p -> (forall a, plex (f a)) -> plex (pbind p f).
Proof. intros A B p f Hp Hf l. unfold pbind. specialize (Hp l). destruct (p l) as [[a|e| |] l']; simpl in *; auto. apply Hf. Qed.
Lemma plex_wrap : forall A (p : P A), plex p -> plex (pwrap p).
Proof. intros A p Hp l. unfold pwrap. specialize (Hp l). destruct (p l) as [[a|e| |] l']; simpl in *; auto. apply nohandler_ctx; auto. Qed.
Lemma plex_try : forall A (p : P A), plex p -> plex (ptry p).
Proof. intros A p Hp l. unfold ptry. destruct (p l) as [[a|e| |] l']; simpl; auto. Qed.
Lemma plex_else : forall A (p : P A) e, nohandler e = true -> plex (por_else p e).
Proof. intros A p e He l. unfold por_else. destruct (p l) as [[a|e'| |] l']; simpl; auto. Qed.
Lemma plex_lift : forall A (o : outcome gerr A), lexical o -> plex (plift o). Proof. intros A o H l; exact H. Qed.
Lemma plex_fun : forall A (g : list Z -> A) h, plex (fun l => (Ret (g l), h l)). Proof. intros A g h l; exact I. Qed.

Lemma psuf_ret : forall A (a : A), psuf (pret a). Proof. intros A a l; apply suffix_refl. Qed.
Lemma psuf_fail : forall A e, psuf (@pfail A e). Proof. intros A e l; apply suffix_refl. Qed.
Lemma psuf_failw : forall A k, psuf (@pfailw A k). Proof. intros A e l; apply suffix_refl. Qed.
Lemma psuf_pan : forall A, psuf (@ppan A). Proof. intros A l; apply suffix_refl. Qed.
Lemma psuf_oof : forall A, psuf (@poof A). Proof. intros A l; apply suffix_refl. Qed.
Lemma psuf_bind : forall A B (p : P A) (f : A -> P B), psuf p -> (forall a, psuf (f a)) -> psuf (pbind p f).
Proof.
  intros A B p f Hp Hf l. unfold pbind. specialize (Hp l). destruct (p l) as [[a|e| |] l']; simpl in *; auto.
  eapply suffix_trans; [apply Hf | auto].
Qed.
Lemma psuf_wrap : forall A (p : P A), psuf p -> psuf (pwrap p).
Proof. intros A p Hp l. unfold pwrap. specialize (Hp l). destruct (p l) as [[a|e| |] l']; simpl in *; auto. Qed.
Lemma psuf_try : forall A (p : P A), psuf p -> psuf (ptry p).
Proof. intros A p Hp l. unfold ptry. specialize (Hp l). destruct (p l) as [[a|e| |] l']; simpl in *; auto. Qed.
Lemma psuf_else : forall A (p : P A) e, psuf p -> psuf (por_else p e).
Proof. intros A p e Hp l. unfold por_else. specialize (Hp l). destruct (p l) as [[a|e'| |] l']; simpl in *; auto. Qed.
Lemma psuf_lift : forall A (o : outcome gerr A), psuf (plift o). Proof. intros A o l; apply suffix_refl. Qed.
Lemma psuf_look : forall A (g : list Z -> A), psuf (fun l => (Ret (g l), l)). Proof. intros A g l; apply suffix_refl. Qed.

Create HintDb scan.
Global Hint Resolve plex_ret plex_failw plex_pan plex_oof plex_try plex_fun plex_else plex_wrap
  psuf_ret psuf_fail psuf_failw psuf_pan psuf_oof psuf_lift psuf_look psuf_try psuf_wrap psuf_else : scan.
Global Hint Extern 1 (plex (pfail _)) => apply plex_fail; reflexivity : scan.
Global Hint Extern 1 (plex (plift _)) => apply plex_lift : scan.
Global Hint Extern 1 (nohandler _ = true) => reflexivity : scan.

Ltac pstep :=
  match goal with
  | |- forall _, _ => intro
  | |- plex (pbind _ _) => apply plex_bind
  | |- psuf (pbind _ _) => apply psuf_bind
  | |- plex (pwrap _) => apply plex_wrap
  | |- psuf (pwrap _) => apply psuf_wrap
  | |- plex (ptry _) => apply plex_try
  | |- psuf (ptry _) => apply psuf_try
  | |- plex (por_else _ _) => apply plex_else; reflexivity
  | |- psuf (por_else _ _) => apply psuf_else
  | |- plex (if ?b then _ else _) => destruct b
  | |- psuf (if ?b then _ else _) => destruct b
  | |- plex (match ?x with _ => _ end) => destruct x
  | |- psuf (match ?x with _ => _ end) => destruct x
  | |- plex (let _ := _ in _) => cbv zeta
  | |- psuf (let _ := _ in _) => cbv zeta
  end.
Ltac pauto := repeat (first [ solve [eauto with scan] | pstep ]).

Section S.
Variable E : env.

Lemma plex_advance : forall n, plex (padvance E n). Proof. intros n l; exact I. Qed.
Lemma plex_peek : plex (ppeek E). Proof. intros l; exact I. Qed.
Lemma plex_peekn : forall n, plex (ppeekn E n). Proof. intros n l; exact I. Qed.
Lemma plex_has : forall p, plex (phas p). Proof. intros p l; exact I. Qed.
Lemma plex_consume : forall p, plex (pconsume p). Proof. intros p l; unfold pconsume; destruct (has_prefix p l); exact I. Qed.
Lemma plex_skip : plex skipBlanks. Proof. intros l; exact I. Qed.
Lemma plex_bpeek : plex (pbpeek E). Proof. intros l; exact I. Qed.
Lemma plex_bclose : plex (pbclose E). Proof. intros l; unfold pbclose; destruct ((bpeek E l =? 63) && _); exact I. Qed.
Lemma plex_skipb : plex (skipBlankBytes E).
Proof. intros l; unfold skipBlankBytes. destruct (Nat.eqb _ _); simpl; auto. destruct (_ && _); simpl; auto. Qed.
Lemma plex_scanName : forall a b k, plex (scanName E a b k).
Proof. intros a b k l; unfold scanName. destruct (_ || _); simpl; auto. destruct (_ <? _); simpl; auto. Qed.
Hint Resolve plex_advance plex_peek plex_peekn plex_has plex_consume plex_skip plex_bpeek plex_bclose plex_skipb plex_scanName : scan.

Lemma plex_name : plex (parseName E). Proof. apply plex_scanName. Qed.
Lemma plex_ncname : plex (parseNCName E). Proof. apply plex_scanName. Qed.
Lemma plex_nmtoken : plex (parseNmtoken E).
Proof. intros l; unfold parseNmtoken. destruct (_ || _); simpl; auto. Qed.
Hint Resolve plex_name plex_ncname plex_nmtoken : scan.

Lemma ptry_lex_bind : forall A B (p : P A) (f : gerr + A -> P B), plex p ->
  (forall e, nohandler e = true -> plex (f (inl e))) -> (forall a, plex (f (inr a))) -> plex (pbind (ptry p) f).
Proof.
  intros A B p f Hp He Ha l. unfold pbind, ptry. specialize (Hp l).
  destruct (p l) as [[a|e| |] l']; simpl in *; auto; [apply Ha | apply He; auto].
Qed.

Lemma plex_qname : plex (parseQName E).
Proof.
  unfold parseQName. apply ptry_lex_bind; intros; pauto.
  apply plex_fail. apply nohandler_ctx; auto.
Qed.
Lemma plex_charref : plex (parseCharRef E).
Proof.
  unfold parseCharRef. apply plex_bind; [auto with scan|]. intro hex. apply plex_bind; [pauto|]. intro dec. destruct (negb dec); [pauto|].
  intro l. destruct (crefLoop _ _ _) as [[v|] l']; simpl; auto.
  destruct (isChar v && _); simpl; auto.
Qed.
Lemma plex_pitarget : plex (parsePITarget E). Proof. unfold parsePITarget. pauto. Qed.
Hint Resolve plex_qname plex_charref plex_pitarget : scan.
Lemma plex_pi : plex (scanPI E). Proof. unfold scanPI. pauto. Qed.
Lemma plex_comment : plex (scanComment E).
Proof.
  unfold scanComment. apply plex_bind; [auto with scan|]. intro ok. destruct (negb ok); [pauto|]. intro l.
  destruct (negb (isChar (peekn E 1 l))); simpl; auto. destruct (negb (isChar (peekn E 2 l))); simpl; auto.
  destruct (commentLoop _ _ _); simpl; auto.
Qed.
Lemma plex_chardata : forall b, plex (scanCharData E b).
Proof. intros b l; unfold scanCharData. destruct (charDataLoop E b l) as [[|c cs]| |]; simpl; auto. Qed.
Hint Resolve plex_pi plex_comment plex_chardata : scan.

Lemma plex_version : plex (parseVersionNum E).
Proof. intros l; unfold parseVersionNum. repeat (destruct (negb _); simpl; auto). Qed.
Lemma plex_encname : plex (parseEncodingName E).
Proof. intros l; unfold parseEncodingName. destruct (negb _); simpl; auto. Qed.
Lemma plex_sddecl : plex parseStandaloneDeclValue. Proof. unfold parseStandaloneDeclValue. pauto. Qed.
Hint Resolve plex_version plex_encname plex_sddecl : scan.
Lemma plex_quoted : forall p, plex p -> plex (parseQuotedTextBytes E p).
Proof. intros; unfold parseQuotedTextBytes. pauto. Qed.
Hint Resolve plex_quoted : scan.
Lemma plex_named : forall n p, plex p -> plex (parseNamedAttributeBytes E n p).
Proof. intros; unfold parseNamedAttributeBytes. pauto. Qed.
Hint Resolve plex_named : scan.
Lemma plex_standalone : plex (parseStandaloneDecl E). Proof. unfold parseStandaloneDecl. pauto. Qed.
Hint Resolve plex_standalone : scan.
Lemma plex_xmldecl : plex (parseXMLDecl E). Proof. unfold parseXMLDecl. pauto. Qed.

Lemma lexical_scr : forall acc s v, lexical (scrLoop acc v s).
Proof.
  intros acc; induction s; intros v; simpl; auto. destruct (a =? 59); simpl; auto.
  destruct (acc v a); simpl; auto. destruct (_ <? _); simpl; auto.
Qed.
Lemma lexical_strref : forall s, lexical (parseStringCharRef s).
Proof.
  intros s; unfold parseStringCharRef. cbv zeta. destruct (negb (has_prefix _ _)); [reflexivity|].
  generalize (skipn 2 s); intros [|c t]; [exact I|].
  destruct (c =? 120).
  - pose proof (lexical_scr accHex t 0). destruct (scrLoop accHex 0 t) as [[v r]|e| |]; simpl in *; auto. destruct (isChar v); simpl; auto.
  - pose proof (lexical_scr accDec (c :: t) 0). destruct (scrLoop accDec 0 (c :: t)) as [[v r]|e| |]; simpl in *; auto. destruct (isChar v); simpl; auto.
Qed.
Lemma lexical_decode : forall n s, lexical (decodeEntities_fuel n s).
Proof.
  induction n; intros s; destruct s as [|c t]; cbn [decodeEntities_fuel]; try exact I.
  destruct (has_prefix _ _).
  - pose proof (lexical_strref (c :: t)). destruct (parseStringCharRef (c :: t)) as [[v r]|e| |]; simpl in *; auto.
    specialize (IHn r). destruct (decodeEntities_fuel n r); simpl in *; auto.
  - destruct (c =? 37); simpl; auto. specialize (IHn t). destruct (decodeEntities_fuel n t); simpl in *; auto.
Qed.
Lemma plex_entval : forall q, plex (parseEntityValueInternal q). Proof. intros q l; exact I. Qed.
Hint Resolve plex_entval : scan.
Lemma plex_entityvalue : plex (parseEntityValue E).
Proof. unfold parseEntityValue. pauto. apply plex_lift. apply lexical_decode. Qed.
Lemma lexical_norm : forall s, lexical (attrNormalizeSpace s).
Proof. intros s; unfold attrNormalizeSpace. destruct s; simpl; auto. destruct (rev _); simpl; auto. Qed.

Lemma lexical_newec : forall n c, lexical (newElementContent n c).
Proof.
  intros; unfold newElementContent. destruct (c =? ctElement).
  - destruct n; simpl; auto. destruct (prefix_local _); simpl; auto.
  - destruct (_ || _); [destruct n|]; simpl; auto.
Qed.
Hint Resolve lexical_newec : scan.
Lemma plex_newec : forall n c, plex (plift (newElementContent n c)). Proof. intros; apply plex_lift; auto with scan. Qed.
Hint Resolve plex_newec : scan.
Lemma plex_occ : forall e, plex (occurrence E e). Proof. intros; unfold occurrence. pauto. Qed.
Hint Resolve plex_occ : scan.
Lemma plex_leaf : plex (nameLeaf E). Proof. unfold nameLeaf. pauto. Qed.
Lemma plex_close : forall r, plex (closeGroup E r). Proof. intros; unfold closeGroup. pauto. Qed.
Hint Resolve plex_leaf plex_close : scan.
Lemma plex_children : forall n, (forall d, plex (childrenDecl E n d)) /\ (forall d s c l, plex (childrenLoop E n d s c l)).
Proof.
  induction n; [split; intros; cbn; pauto|]. destruct IHn as [H1 H2].
  split; intros; cbn [childrenDecl childrenLoop]; pauto.
Qed.
Lemma plex_childrenDecl : forall n d, plex (childrenDecl E n d). Proof. intros; apply plex_children. Qed.
Lemma plex_mixedloop : forall n r e, plex (mixedLoop E n r e).
Proof. induction n; intros; cbn [mixedLoop]; pauto. Qed.
Hint Resolve plex_childrenDecl plex_mixedloop : scan.
Lemma plex_mixed : forall n, plex (mixedDecl E n). Proof. intros; unfold mixedDecl. pauto. Qed.
Hint Resolve plex_mixed : scan.
Lemma plex_content : forall n, plex (elementContentDecl E n). Proof. intros; unfold elementContentDecl. pauto. Qed.
Hint Resolve plex_content : scan.
Lemma plex_elementdecl : forall n, plex (scanElementDecl E n). Proof. intros; unfold scanElementDecl. pauto. Qed.
Lemma plex_tokenloop : forall n p acc, plex p -> plex (tokenLoop E n p acc).
Proof. induction n; intros; cbn [tokenLoop]; pauto. Qed.
Hint Resolve plex_tokenloop : scan.
Lemma plex_tokenlist : forall n p a b, plex p -> plex (tokenList E n p a b).
Proof. intros; unfold tokenList. pauto. Qed.
Hint Resolve plex_tokenlist : scan.
Lemma plex_enumerated : forall n, plex (parseEnumeratedType E n).
Proof. intros; unfold parseEnumeratedType, parseNotationType, parseEnumerationType. pauto. Qed.
Hint Resolve plex_enumerated : scan.
Lemma plex_keywords : forall ks p, plex p -> plex (tryKeywords ks p).
Proof. induction ks as [|[k t] ks]; intros; cbn [tryKeywords]; pauto. Qed.
Lemma plex_attrtype : forall n, plex (parseAttributeType E n). Proof. intros; apply plex_keywords; auto with scan. Qed.

(* ---- forward only ---- *)
Hypothesis OK : env_ok E.

Lemma suffix_advance : forall n l, suffix (advance E n l) l.
Proof.
  intros; unfold advance. destruct (_ <=? _)%nat. apply suffix_skipn.
  destruct (ok_over E OK n l) as [k Hk]. rewrite Hk. apply suffix_skipn.
Qed.
Lemma psuf_advance : forall n, psuf (padvance E n). Proof. intros n l; apply suffix_advance. Qed.
Lemma psuf_peek : psuf (ppeek E). Proof. intros l; apply suffix_refl. Qed.
Lemma psuf_peekn : forall n, psuf (ppeekn E n). Proof. intros n l; apply suffix_refl. Qed.
Lemma psuf_has : forall p, psuf (phas p). Proof. intros p l; apply suffix_refl. Qed.
Lemma psuf_consume : forall p, psuf (pconsume p).
Proof. intros p l; unfold pconsume; destruct (has_prefix p l). apply suffix_skipn. apply suffix_refl. Qed.
Lemma psuf_skip : psuf skipBlanks. Proof. intros l; apply suffix_dropW. Qed.
Lemma psuf_bpeek : psuf (pbpeek E). Proof. intros l; apply suffix_refl. Qed.
Lemma psuf_bclose : psuf (pbclose E).
Proof. intros l; unfold pbclose; destruct (_ && _). apply suffix_advance. apply suffix_refl. Qed.
Lemma psuf_skipb : psuf (skipBlankBytes E).
Proof. intros l; unfold skipBlankBytes. destruct (Nat.eqb _ _); simpl; [|destruct (_ && _); simpl]; apply suffix_dropW. Qed.
Lemma psuf_scanName : forall a b k, psuf (scanName E a b k).
Proof. intros a b k l; unfold scanName. destruct (_ || _); simpl; [apply suffix_refl|]. destruct (_ <? _); simpl; [apply suffix_refl | apply suffix_advance]. Qed.
Hint Resolve psuf_advance psuf_peek psuf_peekn psuf_has psuf_consume psuf_skip psuf_bpeek psuf_bclose psuf_skipb psuf_scanName : scan.
Lemma psuf_name : psuf (parseName E). Proof. apply psuf_scanName. Qed.
Lemma psuf_ncname : psuf (parseNCName E). Proof. apply psuf_scanName. Qed.
Lemma psuf_nmtoken : psuf (parseNmtoken E).
Proof. intros l; unfold parseNmtoken. destruct (_ || _); simpl; apply suffix_refl. Qed.
Hint Resolve psuf_name psuf_ncname psuf_nmtoken : scan.
Lemma psuf_qname : psuf (parseQName E). Proof. unfold parseQName. pauto. Qed.
Lemma suffix_cref : forall acc l v, suffix (snd (crefLoop acc v l)) l.
Proof.
  intros acc; induction l; intros v; simpl. apply suffix_refl. destruct (a =? 59). apply suffix_refl.
  destruct (acc v a). apply suffix_cons; auto. apply suffix_refl.
Qed.
Lemma psuf_charref : psuf (parseCharRef E).
Proof.
  unfold parseCharRef. apply psuf_bind; [auto with scan|]. intro hex. apply psuf_bind; [pauto|]. intro dec. destruct (negb dec); [pauto|].
  intro l. pose proof (suffix_cref (if hex then accHex else accDec) l 0). destruct (crefLoop _ _ _) as [[v|] l']; simpl in *; auto.
  assert (suffix (if peek E l' =? 59 then advance E 1 l' else l') l).
  { destruct (_ =? _); auto. eapply suffix_trans; [apply suffix_advance|auto]. }
  destruct (_ && _); simpl; auto.
Qed.
Lemma psuf_pitarget : psuf (parsePITarget E). Proof. unfold parsePITarget. pauto. Qed.
Lemma psuf_adv : forall A (g : list Z -> A) (h : list Z -> nat), psuf (fun l => (Ret (g l), advance E (h l) l)).
Proof. intros A g h l; apply suffix_advance. Qed.
Hint Resolve psuf_qname psuf_charref psuf_pitarget psuf_adv : scan.
Lemma psuf_pi : psuf (scanPI E).
Proof.
  unfold scanPI. apply psuf_bind; [auto with scan|]. intro. destruct (negb a); [pauto|].
  apply psuf_bind; [pauto|]. intro. apply psuf_bind; [pauto|]. intro. destruct a1; [pauto|].
  apply psuf_bind; [pauto|]. intro. destruct (negb _); [pauto|]. apply psuf_bind; [pauto|]. intro.
  apply psuf_bind; [apply psuf_adv with (h := fun l => List.length (piLoop E l))|]. intro. pauto.
Qed.
Lemma psuf_comment : psuf (scanComment E).
Proof.
  unfold scanComment. apply psuf_bind; [auto with scan|]. intro ok. destruct (negb ok); [pauto|]. intro l.
  destruct (negb (isChar (peekn E 1 l))); simpl; [apply suffix_refl|]. destruct (negb (isChar (peekn E 2 l))); simpl; [apply suffix_refl|].
  destruct (commentLoop _ _ _); simpl; [apply suffix_advance|apply suffix_refl].
Qed.
Lemma psuf_chardata : forall b, psuf (scanCharData E b).
Proof. intros b l; unfold scanCharData. destruct (charDataLoop E b l) as [[|c cs]| |]; simpl; auto using suffix_refl, suffix_advance. Qed.
Hint Resolve psuf_pi psuf_comment psuf_chardata : scan.
Lemma psuf_version : psuf (parseVersionNum E).
Proof. intros l; unfold parseVersionNum. repeat (destruct (negb _); simpl; [apply suffix_refl|]). apply suffix_advance. Qed.
Lemma psuf_encname : psuf (parseEncodingName E).
Proof. intros l; unfold parseEncodingName. destruct (negb _); simpl; [apply suffix_refl|apply suffix_advance]. Qed.
Lemma psuf_sddecl : psuf parseStandaloneDeclValue. Proof. unfold parseStandaloneDeclValue. pauto. Qed.
Hint Resolve psuf_version psuf_encname psuf_sddecl : scan.
Lemma psuf_quoted : forall p, psuf p -> psuf (parseQuotedTextBytes E p).
Proof. intros; unfold parseQuotedTextBytes. pauto. Qed.
Hint Resolve psuf_quoted : scan.
Lemma psuf_named : forall n p, psuf p -> psuf (parseNamedAttributeBytes E n p).
Proof. intros; unfold parseNamedAttributeBytes. pauto. Qed.
Hint Resolve psuf_named : scan.
Lemma psuf_standalone : psuf (parseStandaloneDecl E). Proof. unfold parseStandaloneDecl. pauto. Qed.
Hint Resolve psuf_standalone : scan.
Lemma psuf_xmldecl : psuf (parseXMLDecl E). Proof. unfold parseXMLDecl. pauto. Qed.
Lemma psuf_entval : forall q, psuf (parseEntityValueInternal q). Proof. intros q l; apply suffix_dropW. Qed.
Hint Resolve psuf_entval : scan.
Lemma psuf_entityvalue : psuf (parseEntityValue E). Proof. unfold parseEntityValue. pauto. Qed.
Lemma psuf_occ : forall e, psuf (occurrence E e). Proof. intros; unfold occurrence. pauto. Qed.
Hint Resolve psuf_occ : scan.
Lemma psuf_leaf : psuf (nameLeaf E). Proof. unfold nameLeaf. pauto. Qed.
Lemma psuf_close : forall r, psuf (closeGroup E r). Proof. intros; unfold closeGroup. pauto. Qed.
Hint Resolve psuf_leaf psuf_close : scan.
Lemma psuf_children : forall n, (forall d, psuf (childrenDecl E n d)) /\ (forall d s c l, psuf (childrenLoop E n d s c l)).
Proof.
  induction n; [split; intros; cbn; pauto|]. destruct IHn as [H1 H2].
  split; intros; cbn [childrenDecl childrenLoop]; pauto.
Qed.
Lemma psuf_childrenDecl : forall n d, psuf (childrenDecl E n d). Proof. intros; apply psuf_children. Qed.
Lemma psuf_mixedloop : forall n r e, psuf (mixedLoop E n r e).
Proof. induction n; intros; cbn [mixedLoop]; pauto. Qed.
Hint Resolve psuf_childrenDecl psuf_mixedloop : scan.
Lemma psuf_mixed : forall n, psuf (mixedDecl E n). Proof. intros; unfold mixedDecl. pauto. Qed.
Hint Resolve psuf_mixed : scan.
Lemma psuf_content : forall n, psuf (elementContentDecl E n). Proof. intros; unfold elementContentDecl. pauto. Qed.
Hint Resolve psuf_content : scan.
Lemma psuf_elementdecl : forall n, psuf (scanElementDecl E n). Proof. intros; unfold scanElementDecl. pauto. Qed.
Lemma psuf_tokenloop : forall n p acc, psuf p -> psuf (tokenLoop E n p acc).
Proof. induction n; intros; cbn [tokenLoop]; pauto. Qed.
Hint Resolve psuf_tokenloop : scan.
Lemma psuf_tokenlist : forall n p a b, psuf p -> psuf (tokenList E n p a b).
Proof. intros; unfold tokenList. pauto. Qed.
Hint Resolve psuf_tokenlist : scan.
Lemma psuf_enumerated : forall n, psuf (parseEnumeratedType E n).
Proof. intros; unfold parseEnumeratedType, parseNotationType, parseEnumerationType. pauto. Qed.
Hint Resolve psuf_enumerated : scan.
Lemma psuf_keywords : forall ks p, psuf p -> psuf (tryKeywords ks p).
Proof. induction ks as [|[k t] ks]; intros; cbn [tryKeywords]; pauto. Qed.
Lemma psuf_attrtype : forall n, psuf (parseAttributeType E n). Proof. intros; apply psuf_keywords; auto with scan. Qed.
End S.

Global Hint Resolve plex_advance plex_peek plex_peekn plex_has plex_consume plex_skip plex_name plex_qname plex_charref
  plex_pi plex_comment plex_chardata plex_xmldecl plex_entityvalue plex_elementdecl plex_attrtype : scan.
Global Hint Resolve psuf_advance psuf_peek psuf_peekn psuf_has psuf_consume psuf_skip psuf_name psuf_qname psuf_charref
  psuf_pi psuf_comment psuf_chardata psuf_xmldecl psuf_entityvalue psuf_elementdecl psuf_attrtype : scan.
