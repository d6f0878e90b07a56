(* Termination: with as much fuel as the input is long (plus an allowance per
   level of entity nesting), Parse never runs out of it, for inputs without
   the constructs on which the parser provably hangs. *)
From Verif Require Import Base Utf8 Encoding Scan ScanProofs Parser.

(* ---- specification: inputs that are free of the hanging constructs ---- *)
(* after a colon that ends a prefix: no name at all, or a local name that
   starts with a name start character and is shorter than the name limit *)
Definition colon_ok (E : env) (r : list Z) : Prop :=
  isNameChar E (peek E r) = true ->
  isNameStartChar E (peek E r) = true /\ Z.of_nat (List.length (takeW (ncnameRest E) (tl r))) < 49999.
(* every CDATA section is terminated (or cut short by a NUL), no document
   type declaration, every colon is all right *)
Definition calm (E : env) (l : list Z) : Prop := forall pre suf, l = pre ++ suf ->
  (forall r, suf = s_ "<![CDATA[" ++ r -> (exists a b, r = a ++ s_ "]]>" ++ b) \/ In 0 r) /\
  (forall r, suf <> s_ "<!DOCTYPE" ++ r) /\
  (forall r, suf = 58 :: r -> colon_ok E r).

(* an entity that is not too long and whose text meets a condition C *)
Definition small (C : list Z -> Prop) (L : nat) (e : ent) : Prop := e_type e = InternalGeneralEntity ->
  (List.length (runes_of (e_content e)) <= L)%nat /\ C (runes_of (e_content e)).
Definition nice (E : env) (L : nat) (e : ent) : Prop := small (calm E) L e.
(* a callback that declares no entity other than such ones *)
Definition modest (C : list Z -> Prop) (L : nat) (e : event) : Prop :=
  match e with
  | EEntityDecl _ t _ _ v => t = InternalGeneralEntity -> (List.length (runes_of v) <= L)%nat /\ C (runes_of v)
  | _ => True
  end.

Lemma calm_suffix : forall E l l', calm E l -> suffix l' l -> calm E l'.
Proof. intros E l l' Hc (p & ->) pre suf ->. apply (Hc (p ++ pre)). rewrite app_assoc; auto. Qed.

Section T.
Variable E : env.
Hypothesis OK : env_ok E.
(* Advance past the end of the input consumes something *)
Hypothesis OV : forall n l, l <> [] -> (List.length (over E n l) < List.length l)%nat.
(* the condition on the text: it holds of every rest of a text, CDATA
   sections are terminated and colons all right *)
Variable C : list Z -> Prop.
Hypothesis CS : forall l l', C l -> suffix l' l -> C l'.
Hypothesis CD : forall r, C (s_ "<![CDATA[" ++ r) -> (exists a b, r = a ++ s_ "]]>" ++ b) \/ In 0 r.
Hypothesis CO : forall r, C (58 :: r) -> colon_ok E r.

(* ---- scanners ---- *)
Definition pok {A} (b : bool) (p : P A) : Prop := forall l, C l ->
  fst (p l) <> Oof /\ suffix (snd (p l)) l /\
  (b = true -> match fst (p l) with Ret _ => (List.length (snd (p l)) < List.length l)%nat | _ => True end).

Lemma pok_weak : forall A b (p : P A), pok b p -> pok false p.
Proof. intros A b p Hp l Hl. destruct (Hp l Hl) as (H1 & H2 & _). repeat split; auto. discriminate. Qed.
Lemma pok_bind : forall A B b1 b2 (p : P A) (f : A -> P B), pok b1 p -> (forall a, pok b2 (f a)) -> pok (b1 || b2) (pbind p f).
Proof.
  intros A B b1 b2 p f Hp Hf l Hl. destruct (Hp l Hl) as (H1 & H2 & H3). unfold pbind.
  destruct (p l) as [[a|e| |] l']; cbn [fst snd] in *.
  - destruct (Hf a l') as (G1 & G2 & G3); [eapply CS; eauto|]. split; auto. split; [eapply suffix_trans; eauto|].
    intros Hb. pose proof (suffix_length _ _ H2). pose proof (suffix_length _ _ G2).
    destruct (fst (f a l')); auto. destruct b1; [specialize (H3 eq_refl); lia|]. simpl in Hb. specialize (G3 Hb). lia.
  - repeat split; auto; discriminate.
  - repeat split; auto; discriminate.
  - congruence.
Qed.
Lemma pok_ret : forall A (a : A), pok false (pret a).
Proof. intros A a l _. repeat split; try discriminate. apply suffix_refl. Qed.
Lemma pok_fail : forall A b e, pok b (@pfail A e).
Proof. intros A b a l _. repeat split; try discriminate; simpl; auto. apply suffix_refl. Qed.
Lemma pok_failw : forall A b e, pok b (@pfailw A e).
Proof. intros; apply pok_fail. Qed.
Lemma pok_wrap : forall A b (p : P A), pok b p -> pok b (pwrap p).
Proof. intros A b p Hp l Hl. specialize (Hp l Hl). unfold pwrap. destruct (p l) as [[a|e| |] l']; cbn [fst snd] in *; intuition discriminate. Qed.
Lemma pok_else : forall A b (p : P A) e, pok b p -> pok b (por_else p e).
Proof. intros A b p e Hp l Hl. specialize (Hp l Hl). unfold por_else. destruct (p l) as [[a|e'| |] l']; cbn [fst snd] in *; intuition discriminate. Qed.
Lemma pok_try : forall A b (p : P A), pok b p -> pok false (ptry p).
Proof. intros A b p Hp l Hl. specialize (Hp l Hl). unfold ptry. destruct (p l) as [[a|e'| |] l']; cbn [fst snd] in *; intuition discriminate. Qed.
Lemma pok_look : forall A (g : list Z -> A), pok false (fun l => (Ret (g l), l)).
Proof. intros A g l _. repeat split; try discriminate. apply suffix_refl. Qed.
Lemma pok_advance : forall n, pok false (padvance E n).
Proof. intros n l _. repeat split; try discriminate. apply suffix_advance; auto. Qed.
Lemma pok_consume : forall p, pok false (pconsume p).
Proof.
  intros p l _. unfold pconsume. destruct (has_prefix p l); cbn [fst snd]; repeat split; try discriminate.
  apply suffix_skipn. apply suffix_refl.
Qed.
Lemma pok_skip : pok false skipBlanks.
Proof. intros l _. repeat split; try discriminate. apply suffix_dropW. Qed.
Lemma advance_less : forall n l, l <> [] -> (1 <= n)%nat -> (List.length (advance E n l) < List.length l)%nat.
Proof.
  intros n l Hl Hn. unfold advance. destruct (Nat.leb_spec n (List.length l)); [|apply OV; auto].
  rewrite skipn_length. destruct l; [congruence|]. cbn [List.length] in *. lia.
Qed.
Lemma peek_nonempty : forall l c, peek E l = c -> c <> 0 -> c <> RuneError -> l <> [].
Proof. intros [|x l] c Hp H1 H2; [|discriminate]. unfold peek in Hp. simpl in Hp. destruct (ok_eofr E OK); congruence. Qed.

Lemma pok_scanName : forall start rest k, (forall c, start c = true -> c <> 0 /\ c <> RuneError) -> pok true (scanName E start rest k).
Proof.
  intros start rest k Hs l _. split; [|split; [apply psuf_scanName; auto|]].
  - unfold scanName. cbv zeta. destruct (_ || _); [discriminate|]. destruct (_ <? _); discriminate.
  - intros _. unfold scanName. cbv zeta. destruct ((peek E l =? 32) || (peek E l =? 62) || (peek E l =? 47) || negb (start (peek E l))) eqn:Hc; [exact I|].
    destruct (_ <? _); [exact I|]. cbn [fst snd].
    apply orb_false_iff in Hc as [_ Hc]. apply negb_false_iff in Hc. destruct (Hs _ Hc) as [H1 H2].
    apply advance_less. eapply peek_nonempty; eauto. destruct (_ =? 0); lia.
Qed.
Lemma start_ok : forall c, isLetter E c || (c =? 95) || (c =? 58) = true -> c <> 0 /\ c <> RuneError.
Proof.
  intros c Hc. split; intros ->.
  - rewrite (ok_letter E OK) in Hc by lia. discriminate.
  - rewrite (ok_letter_err E OK) in Hc. discriminate.
Qed.
Lemma pok_name : pok true (parseName E).
Proof. apply pok_scanName. apply start_ok. Qed.
Lemma pok_ncname : pok true (parseNCName E).
Proof. apply pok_scanName. apply start_ok. Qed.

(* the second half of a qualified name *)
Lemma ncname_after_colon : forall l, colon_ok E l ->
  (exists v l', parseNCName E l = (Ret v, l')) \/ fst (parseNmtoken E l) = Ret [].
Proof.
  intros l Hc. unfold colon_ok in Hc. unfold parseNmtoken. destruct (isNameChar E (peek E l)) eqn:Hn; [|right; rewrite orb_true_r; auto].
  destruct (Hc eq_refl) as [Hs Hlen]. left. unfold parseNCName, scanName. cbv zeta. rewrite Hs.
  assert (Hne : (peek E l =? 32) || (peek E l =? 62) || (peek E l =? 47) || negb true = false).
  { unfold isNameStartChar in Hs. destruct (Z.eqb_spec (peek E l) 32) as [e|_]; [rewrite e, (ok_letter E OK) in Hs by lia; discriminate|].
    destruct (Z.eqb_spec (peek E l) 62) as [e|_]; [rewrite e, (ok_letter E OK) in Hs by lia; discriminate|].
    destruct (Z.eqb_spec (peek E l) 47) as [e|_]; [rewrite e, (ok_letter E OK) in Hs by lia; discriminate|]. reflexivity. }
  rewrite Hne. destruct (Z.ltb_spec MaxNameLength (Z.of_nat (if peek E (dropW (ncnameRest E) (tl l)) =? 0
      then S (S (List.length (takeW (ncnameRest E) (tl l)))) else S (List.length (takeW (ncnameRest E) (tl l)))))) as [Hm|Hm]; [|eauto].
  exfalso. unfold MaxNameLength in Hm. destruct (_ =? 0); lia.
Qed.
Lemma local_part : forall (v : str), forall l, C (58 :: l) ->
  let q := (r2 <- ptry (parseNCName E) ;; match r2 with inr x => pret (x, v) | inl _ => x <- parseNmtoken E ;; pret (x, v) end)%scan in
  fst (q l) <> Oof /\ suffix (snd (q l)) l.
Proof.
  intros v l Hc. cbv zeta. assert (Hk : colon_ok E l) by (apply CO; auto).
  assert (Hcl : C l) by (eapply CS; [eauto|exists [58]; reflexivity]).
  destruct (pok_ncname l Hcl) as (N1 & N2 & _).
  unfold pbind, ptry. destruct (ncname_after_colon l Hk) as [(x & l' & Hx)|Hx].
  - rewrite Hx in *. cbn. split; [discriminate|exact N2].
  - destruct (parseNCName E l) as [[x|e| |] l'] eqn:Hn; cbn [fst snd] in *; [cbn; split; [discriminate|auto] | | split; [discriminate|auto] | congruence].
    assert (l' = l). { unfold parseNCName, scanName in Hn. cbv zeta in Hn. destruct (_ || _); [inversion Hn; auto|]. destruct (_ <? _); inversion Hn; auto. }
    subst l'. destruct (parseNmtoken E l) as [o l2] eqn:Hm. cbn [fst] in Hx. subst o. cbn.
    split; [discriminate|]. pose proof (psuf_nmtoken E l) as Hs. rewrite Hm in Hs. exact Hs.
Qed.
Definition qlocal (v : str) : P (str * str) :=
  (r2 <- ptry (parseNCName E) ;; match r2 with inr x => pret (x, v) | inl _ => x <- parseNmtoken E ;; pret (x, v) end)%scan.
Lemma parseQName_eq : forall l, parseQName E l =
  match parseNCName E l with
  | (Ret v, l') => if negb (peek E l' =? 58) then (Ret (v, []), l') else qlocal v (advance E 1 l')
  | (Fail e, l') => if negb (peek E l' =? 58)
                    then pbind (por_else (parseName E) (PErr (Plain "failed to parse QName"))) (fun v => pret (v, [])) l'
                    else (Fail (ctx_error e), l')
  | (Pan, l') => (Pan, l')
  | (Oof, l') => (Oof, l')
  end.
Proof.
  intros l. unfold parseQName, pbind at 1, ptry at 1. destruct (parseNCName E l) as [[v|e| |] l']; auto.
  - unfold pbind at 1, ppeek. destruct (negb _); auto.
  - unfold pbind at 1, ppeek. destruct (negb _); auto.
Qed.
Lemma pok_qname : pok true (parseQName E).
Proof.
  intros l Hl. rewrite parseQName_eq.
  destruct (pok_ncname l Hl) as (N1 & N2 & N3). specialize (N3 eq_refl).
  destruct (parseNCName E l) as [[v|e| |] l'] eqn:Hn; cbn [fst snd] in *.
  - destruct (Z.eqb_spec (peek E l') 58) as [Hp|Hp]; cbn [negb].
    + assert (Hne : l' <> []) by (apply (peek_nonempty l' 58); auto; discriminate).
      destruct l' as [|c l2]; [congruence|]. unfold peek in Hp; simpl in Hp; subst c.
      assert (Ha : advance E 1 (58 :: l2) = l2) by reflexivity. rewrite Ha.
      assert (Hc2 : C (58 :: l2)) by (eapply CS; eauto).
      destruct (local_part v l2 Hc2) as (L1 & L2). fold (qlocal v) in L1, L2.
      split; [exact L1|]. assert (Hs : suffix l2 l) by (eapply suffix_trans; [|exact N2]; exists [58]; reflexivity).
      split; [eapply suffix_trans; [exact L2|exact Hs]|]. intros _.
      destruct (fst (qlocal v l2)); auto.
      apply suffix_length in L2. cbn [List.length] in N3. lia.
    + cbn. split; [discriminate|]. split; auto.
  - assert (l' = l). { unfold parseNCName, scanName in Hn. cbv zeta in Hn. destruct (_ || _); [inversion Hn; auto|]. destruct (_ <? _); inversion Hn; auto. }
    subst l'. destruct (negb _).
    + exact (pok_bind _ _ true false _ (fun v : str => pret (v, @nil Z)) (pok_else _ _ _ (PErr (Plain "failed to parse QName")) pok_name) (fun v => pok_ret _ (v, [])) l Hl).
    + cbn. split; [discriminate|]. split; [apply suffix_refl|auto].
  - repeat split; auto; discriminate.
  - congruence.
Qed.
Lemma pok_charref : pok true (parseCharRef E).
Proof.
  intros l Hl. split; [|split; [apply psuf_charref; auto|]].
  - unfold parseCharRef, pbind. unfold pconsume at 1. destruct (has_prefix (s_ "&#x") l) eqn:H1; cbn [negb].
    + unfold pret at 1. cbn [negb]. destruct (crefLoop _ _ _) as [[v|] l']; [|discriminate]. destruct (_ && _); discriminate.
    + unfold pconsume. destruct (has_prefix (s_ "&#") l) eqn:H2; cbn [negb]; [|discriminate].
      destruct (crefLoop _ _ _) as [[v|] l']; [|discriminate]. destruct (_ && _); discriminate.
  - intros _.
    assert (Hskip : forall p, has_prefix p l = true -> p <> [] -> (List.length (skipn (List.length p) l) < List.length l)%nat).
    { intros p Hp Hne. rewrite skipn_length. apply has_prefix_true in Hp as (t & ->). rewrite app_length. destruct p; [congruence|]. cbn [List.length]. lia. }
    destruct (parseCharRef E l) as [o r] eqn:Hr. cbn [fst snd]. destruct o as [z| | |]; auto.
    assert (Hfin : forall acc k l0, (List.length l0 < List.length l)%nat ->
      match crefLoop acc 0 l0 with
      | (None, l') => (Fail (Plain k), l')
      | (Some val, l') =>
          let l'' := if peek E l' =? 59 then advance E 1 l' else l' in
          if isChar val && (val <=? 1114111) then (Ret val, l'') else (Fail (Plain "ErrInvalidChar"), l'')
      end = (Ret z, r) -> (List.length r < List.length l)%nat).
    { intros acc k l0 Hl0 Hx. pose proof (suffix_cref acc l0 0) as Hs. destruct (crefLoop acc 0 l0) as [[v|] l']; [|discriminate].
      cbn [snd] in Hs. apply suffix_length in Hs. cbv zeta in Hx.
      assert (Ha : (List.length (if (peek E l' =? 59)%Z then advance E 1 l' else l') <= List.length l')%nat).
      { destruct (_ =? _); auto. apply suffix_length, suffix_advance; auto. }
      destruct (_ && _); inversion Hx; subst. lia. }
    unfold parseCharRef, pbind in Hr. unfold pconsume at 1 in Hr. destruct (has_prefix (s_ "&#x") l) eqn:H1; cbn [negb] in Hr.
    + unfold pret at 1 in Hr. cbn [negb] in Hr. eapply Hfin; [|exact Hr]. apply (Hskip _ H1); discriminate.
    + unfold pconsume in Hr. destruct (has_prefix (s_ "&#") l) eqn:H2; cbn [negb] in Hr; [|discriminate].
      eapply Hfin; [|exact Hr]. apply (Hskip _ H2); discriminate.
Qed.
Lemma pok_pitarget : pok true (parsePITarget E).
Proof.
  unfold parsePITarget. apply (pok_bind _ _ true false). apply pok_wrap, pok_name. intros name.
  destruct (str_eqb _ _); [apply pok_fail|]. destruct (_ || _); [apply pok_ret|]. destruct (mem_byte _ _); [apply pok_fail|apply pok_ret].
Qed.
Lemma pok_PI : pok true (scanPI E).
Proof.
  unfold scanPI. apply (pok_bind _ _ false true). apply pok_consume. intros [|]; cbn [negb]; [|apply pok_failw].
  apply (pok_bind _ _ true false). apply pok_wrap, pok_pitarget. intros t.
  apply (pok_bind _ _ false false). apply pok_consume. intros [|]; [apply pok_ret|].
  apply (pok_bind _ _ false false). apply pok_look. intros c. destruct (negb _); [apply pok_failw|].
  apply (pok_bind _ _ false false). apply pok_skip. intros _.
  apply (pok_bind _ _ false false). { intros l _. repeat split; try discriminate. apply suffix_advance; auto. } intros d.
  apply (pok_bind _ _ false false). apply pok_consume. intros [|]; cbn [negb]; [apply pok_ret|apply pok_failw].
Qed.
Lemma pok_opened : forall A p (f : P A) k, p <> [] -> pok false f ->
  pok true (pbind (pconsume p) (fun ok => if negb ok then pfailw k else f)).
Proof.
  intros A p f k Hp Hf l Hl. unfold pbind, pconsume. destruct (has_prefix p l) eqn:Hh; cbn [negb].
  - apply has_prefix_true in Hh as (t & ->). rewrite skipn_app, skipn_all, Nat.sub_diag. cbn [app skipn].
    assert (Hs : suffix t (p ++ t)) by (exists p; auto).
    destruct (Hf t) as (F1 & F2 & _); [eapply CS; eauto|]. split; auto. split; [eapply suffix_trans; eauto|].
    intros _. destruct (fst (f t)); auto. apply suffix_length in F2. rewrite app_length. destruct p; [congruence|]. cbn [List.length]. lia.
  - cbn. split; [discriminate|]. split; [apply suffix_refl|auto].
Qed.
Lemma pok_comment : pok true (scanComment E).
Proof.
  unfold scanComment. apply pok_opened; [discriminate|]. intros l _.
  destruct (negb (isChar (peekn E 1 l))); [cbn; repeat split; try discriminate; apply suffix_refl|].
  destruct (negb (isChar (peekn E 2 l))); [cbn; repeat split; try discriminate; apply suffix_refl|].
  destruct (commentLoop _ _ _); cbn; repeat split; try discriminate; [apply suffix_advance; auto|apply suffix_refl].
Qed.
Lemma charDataLoop_runs : forall l, charDataLoop E false l <> CDHang.
Proof.
  induction l as [|c t IH]; simpl; [destruct (_ =? 0); discriminate|]. destruct (c =? 0); [discriminate|].
  destruct (_ || _); [discriminate|]. destruct (_ && _); [discriminate|]. destruct (charDataLoop E false t); cbn; congruence.
Qed.
Lemma charDataLoop_prefix : forall b l cs, charDataLoop E b l = CDOk cs -> exists t, l = cs ++ t.
Proof.
  intros b; induction l as [|c t IH]; intros cs Hc; cbn [charDataLoop] in Hc.
  - destruct (_ =? 0); [inversion Hc; exists []; auto|]. destruct b; inversion Hc; exists []; auto.
  - destruct (c =? 0); [inversion Hc; exists (c :: t); auto|]. destruct (negb b && _); [inversion Hc; exists (c :: t); auto|].
    destruct (_ && _); [destruct b; inversion Hc; exists (c :: t); auto|].
    destruct (charDataLoop E b t) as [cs'| |] eqn:Ht; cbn in Hc; inversion Hc; subst.
    destruct (IH cs' eq_refl) as (u & ->). exists u; auto.
Qed.
Lemma charData_eats : forall b l, match fst (scanCharData E b l) with Ret _ => (List.length (snd (scanCharData E b l)) < List.length l)%nat | _ => True end.
Proof.
  intros b l. unfold scanCharData. destruct (charDataLoop E b l) as [[|c cs]| |] eqn:Hc; cbn [fst snd]; auto.
  destruct (charDataLoop_prefix _ _ _ Hc) as (t & ->). apply advance_less; [discriminate|]. cbn [List.length]. lia.
Qed.
Lemma pok_chardata : pok true (scanCharData E false).
Proof.
  intros l _. split; [|split; [apply psuf_chardata; auto|intros; apply charData_eats]].
  unfold scanCharData. pose proof (charDataLoop_runs l). destruct (charDataLoop E false l) as [[|c cs]| |]; cbn; congruence.
Qed.
Lemma cdata_ends : forall l, ((exists a b, l = a ++ s_ "]]>" ++ b) \/ In 0 l) -> charDataLoop E true l <> CDHang.
Proof.
  induction l as [|c t IH]; intros Ht.
  - destruct Ht as [([|x a] & b & Hx)|[]]; discriminate.
  - cbn [charDataLoop negb andb]. destruct (Z.eqb_spec c 0); [discriminate|].
    destruct ((c =? 93) && (peekn E 1 t =? 93) && (peekn E 2 t =? 62)) eqn:Hx; [discriminate|].
    assert (Hi : charDataLoop E true t <> CDHang).
    { apply IH. destruct Ht as [([|x a] & b & Hy)|[Hz|Hz]]; [|left|congruence|right; auto].
      - exfalso. cbn in Hy. inversion Hy; subst. vm_compute in Hx. discriminate.
      - exists a, b. cbn [app] in Hy. congruence. }
    destruct (charDataLoop E true t); cbn; congruence.
Qed.

(* ---- the parser ---- *)
Section M.
Variable S : Type.
Variable H : handler S.
(* what the handler keeps to itself, and its entities: each has at most L
   runes and is itself free of hanging constructs *)
Variable good : S -> Prop.
Variable L : nat.
Hypothesis GE : forall h v e, good h -> modest C L e -> good (fst (h_event H h v e)).
Hypothesis GG : forall h v n, good h -> good (fst (h_getEntity H h v n)) /\
  forall e b, snd (h_getEntity H h v n) = Answer (Some (Real e)) b -> (small C L) e.
Hypothesis GN : forall h, good h -> good (h_chunkEnter H h).
Hypothesis GL : forall h h', good h -> good h' -> good (h_chunkLeave H h h').

(* whether the parser may be inside the document type declaration; then the
   document's own entities matter too *)
Variable D : Prop.
Hypothesis GD : D -> forall h n e, good h -> h_docEntity H h n = Some (Some e) -> small C L e.

Definition J (s : pst S) : Prop := C (inp s) /\ good (hs s) /\ (inSubset s = 0 \/ D).
Definition need (s : pst S) : nat := (List.length (inp s) + (L + 2) * Z.to_nat (41 - depth s))%nat.
Definition fin (k : nat) (b : bool) {A} (Q : A -> Prop) (m : M S A) : Prop := forall s, J s -> (need s <= k)%nat ->
  fst (m s) <> Oof /\ J (snd (m s)) /\ suffix (inp (snd (m s))) (inp s) /\ depth (snd (m s)) = depth s /\
  (forall a, fst (m s) = Ret a -> Q a /\ (b = true -> (List.length (inp (snd (m s))) < List.length (inp s))%nat)).
Definition any {A} (a : A) : Prop := True.

Ltac s5 := refine (conj _ (conj _ (conj _ (conj _ _)))).
Lemma need_suffix : forall s s', suffix (inp s') (inp s) -> depth s' = depth s -> (need s' <= need s)%nat.
Proof. intros s s' Hs Hd. unfold need. rewrite Hd. apply suffix_length in Hs. lia. Qed.
Lemma fin_weak : forall k k' b A (Q : A -> Prop) m, fin k b Q m -> (k' <= k)%nat -> fin k' false any m.
Proof.
  intros k k' b A Q m Hm Hk s Hs Hn. destruct (Hm s Hs ltac:(lia)) as (F1 & F2 & F3 & F4 & F5).
  s5; auto. intros a Ha. split; [exact I|discriminate].
Qed.
Lemma fin_weak' : forall k k' b A (Q : A -> Prop) m, fin k b Q m -> (k' <= k)%nat -> fin k' b Q m.
Proof. intros k k' b A Q m Hm Hk s Hs Hn. apply Hm; auto. lia. Qed.
Lemma fin_any : forall k b A (Q : A -> Prop) m, fin k b Q m -> fin k b any m.
Proof.
  intros k b A Q m Hm s Hs Hn. destruct (Hm s Hs ltac:(lia)) as (F1 & F2 & F3 & F4 & F5).
  split; auto. split; auto. split; auto. split; auto. intros a Ha. destruct (F5 a Ha). split; auto. exact I.
Qed.
Lemma fin_bind : forall k b A B (Q : A -> Prop) (R : B -> Prop) m (f : A -> M S B),
  fin k false Q m -> (forall a, Q a -> fin k b R (f a)) -> fin k b R (bind S m f).
Proof.
  intros k b A B Q R m f Hm Hf s Hs Hn. destruct (Hm s Hs Hn) as (F1 & F2 & F3 & F4 & F5). unfold bind.
  destruct (m s) as [[a|e| |] s']; cbn [fst snd] in *.
  - destruct (F5 a eq_refl) as [Qa _]. pose proof (need_suffix _ _ F3 F4) as Hn'.
    destruct (Hf a Qa s' F2 ltac:(lia)) as (G1 & G2 & G3 & G4 & G5).
    split; auto. split; auto. split; [eapply suffix_trans; eauto|]. split; [congruence|].
    intros b0 Hb0. destruct (G5 b0 Hb0) as [Qb Lt]. split; auto. intros Hb. specialize (Lt Hb). apply suffix_length in F3. lia.
  - s5; auto; discriminate.
  - s5; auto; discriminate.
  - congruence.
Qed.
(* the first part consumes input, so that the rest may use less fuel *)
Lemma fin_eat : forall k b b' A B (Q : A -> Prop) (R : B -> Prop) m (f : A -> M S B),
  fin k true Q m -> (forall a k', k = Datatypes.S k' -> Q a -> fin k' b R (f a)) -> fin k b' R (bind S m f).
Proof.
  intros k b b' A B Q R m f Hm Hf s Hs Hn. destruct (Hm s Hs Hn) as (F1 & F2 & F3 & F4 & F5). unfold bind.
  destruct (m s) as [[a|e| |] s']; cbn [fst snd] in *.
  - destruct (F5 a eq_refl) as [Qa Lt]. specialize (Lt eq_refl).
    assert (Hn' : (need s' < need s)%nat) by (unfold need; rewrite F4; lia).
    destruct k as [|k']; [lia|].
    destruct (Hf a k' eq_refl Qa s' F2 ltac:(lia)) as (G1 & G2 & G3 & G4 & G5).
    split; auto. split; auto. split; [eapply suffix_trans; eauto|]. split; [congruence|].
    intros b0 Hb0. destruct (G5 b0 Hb0) as [Qb _]. split; auto. intros _. apply suffix_length in G3. lia.
  - s5; auto; discriminate.
  - s5; auto; discriminate.
  - congruence.
Qed.
Lemma fin_wrap : forall k b A (Q : A -> Prop) m, fin k b Q m -> fin k b Q (wrap S m).
Proof.
  intros k b A Q m Hm s Hs Hn. specialize (Hm s Hs Hn). unfold wrap.
  destruct (m s) as [[a|e| |] s']; cbn [fst snd] in *; auto.
  destruct Hm as (F1 & F2 & F3 & F4 & F5). s5; auto; discriminate.
Qed.
Lemma fin_always : forall k b A (Q : A -> Prop) m c, fin k b Q m -> psuf c -> fin k b Q (always S m c).
Proof.
  intros k b A Q m c Hm Hc s Hs Hn. specialize (Hm s Hs Hn). unfold always.
  destruct (m s) as [[a|e| |] s']; cbn [fst snd] in *; auto; destruct Hm as (F1 & F2 & F3 & F4 & F5); pose proof (Hc (inp s')) as Hsuf.
  - split; [discriminate|]. split; [destruct F2 as (F21 & F22 & F23); repeat split; auto; eapply CS; eauto|].
    split; [eapply suffix_trans; eauto|]. split; [auto|]. intros a0 Ha0. destruct (F5 a0 Ha0) as [Qa Lt]. split; auto.
    intros Hb. specialize (Lt Hb). apply suffix_length in Hsuf. cbn [inp set_inp]. lia.
  - split; [discriminate|]. split; [destruct F2 as (F21 & F22 & F23); repeat split; auto; eapply CS; eauto|].
    split; [eapply suffix_trans; eauto|]. split; [auto|discriminate].
Qed.
Lemma fin_ret : forall k A (Q : A -> Prop) (a : A), Q a -> fin k false Q (ret S a).
Proof. intros k A Q a Qa s Hs Hn. cbn. s5; auto; try discriminate; try apply suffix_refl. intros a0 Ha0. inversion Ha0; subst. split; [auto|discriminate]. Qed.
Lemma fin_fail : forall k b A (Q : A -> Prop) e, fin k b Q (@fail S A e).
Proof. intros k b A Q e s Hs Hn. cbn. s5; auto; try discriminate; try apply suffix_refl; try (intros ? _; split; [exact I|discriminate]). Qed.
Lemma fin_failw : forall k b A (Q : A -> Prop) e, fin k b Q (@failw S A e).
Proof. intros; apply fin_fail. Qed.
Lemma fin_pan : forall k b A (Q : A -> Prop), fin k b Q (@pan S A).
Proof. intros k b A Q s Hs Hn. cbn. s5; auto; try discriminate; try apply suffix_refl; try (intros ? _; split; [exact I|discriminate]). Qed.
Lemma fin_get : forall k A (f : pst S -> A), fin k false any (get S f).
Proof. intros k A f s Hs Hn. cbn. s5; auto; try discriminate; try apply suffix_refl; try (intros ? _; split; [exact I|discriminate]). Qed.
Lemma fin_mlift : forall k A (o : outcome gerr A), o <> Oof -> fin k false any (mlift S o).
Proof. intros k A f Hf s Hs Hn. cbn. s5; auto; try discriminate; try apply suffix_refl; try (intros ? _; split; [exact I|discriminate]). Qed.
Lemma fin_modify : forall k f, (forall s, inp (f s) = inp s /\ hs (f s) = hs s /\ inSubset (f s) = inSubset s /\ depth (f s) = depth s) ->
  fin k false any (modify S f).
Proof.
  intros k f Hf s (J1 & J2 & J3) Hn. destruct (Hf s) as (A1 & A2 & A3 & A4). cbn. unfold J. rewrite A1, A2, A3, A4.
  s5; auto; try discriminate; try apply suffix_refl; try (intros ? _; split; [exact I|discriminate]).
Qed.
Lemma fin_lift : forall k b A (p : P A), pok b p -> fin k b any (lift S p).
Proof.
  intros k b A p Hp s (J1 & J2 & J3) Hn. unfold lift. destruct (Hp (inp s) J1) as (P1 & P2 & P3).
  destruct (p (inp s)) as [o l]. cbn [fst snd] in *. split; auto. split; [repeat split; auto; eapply CS; eauto|].
  split; auto. split; auto. intros a ->. split; [exact I|]. auto.
Qed.
Lemma fin_emit_raw : forall k e, modest C L e -> fin k false any (emit_raw S H e).
Proof.
  intros k e He s (J1 & J2 & J3) Hn. unfold emit_raw. pose proof (GE (hs s) (the_view S s) e J2 He) as G. destruct (h_event _ _ _ _) as [h' r]. cbn [fst] in G.
  destruct r; cbn; s5; unfold J; auto; try discriminate; try apply suffix_refl; try (intros ? _; split; [exact I|discriminate]).
Qed.
Lemma fin_emit : forall k e, modest C L e -> fin k false any (emit S H e).
Proof. intros; apply fin_wrap, fin_emit_raw; auto. Qed.
Lemma fin_peek : forall k, fin k false any (mpeek E S). Proof. intros; apply fin_lift, pok_look. Qed.
Lemma fin_peekn : forall k n, fin k false any (mpeekn E S n). Proof. intros; apply fin_lift, pok_look. Qed.
Lemma fin_adv : forall k n, fin k false any (madvance E S n). Proof. intros; apply fin_lift, pok_advance. Qed.
Lemma fin_has : forall k p, fin k false any (mhas S p). Proof. intros; apply fin_lift, pok_look. Qed.
Lemma fin_consume : forall k p, fin k false any (mconsume S p). Proof. intros; apply fin_lift, pok_consume. Qed.
Lemma fin_skip : forall k, fin k false any (mskip S). Proof. intros; apply fin_lift, pok_skip. Qed.
Lemma fin_done : forall k, fin k false any (mdone S). Proof. intros; apply fin_get. Qed.
Lemma fin_blanks : forall k t, fin k false any (areBlanks E S H t).
Proof. intros k t s Hs Hn. cbn. s5; auto; try discriminate; try apply suffix_refl; try (intros ? _; split; [exact I|discriminate]). Qed.

Ltac fsolve := first [ apply fin_peek | apply fin_peekn | apply fin_adv | apply fin_has | apply fin_consume | apply fin_skip | apply fin_done
  | apply fin_failw | apply fin_fail | apply fin_pan | apply fin_get | apply fin_emit; exact I | apply fin_emit_raw; exact I | apply fin_blanks
  | apply fin_ret; exact I | assumption ].
Ltac fstep := first [ fsolve | match goal with
  | |- forall _, _ => intro
  | |- fin _ _ _ (bind _ _ _) => eapply fin_bind; [first [fsolve | apply fin_wrap; fsolve]|]
  | |- fin _ _ _ (bind _ (if _ then _ else _) _) => eapply fin_bind with (Q := any)
  | |- fin _ _ _ (wrap _ _) => apply fin_wrap
  | |- fin _ _ _ (if ?b then _ else _) => destruct b
  | |- fin _ _ _ (let '(_, _) := ?x in _) => destruct x
  | |- fin _ _ _ (match ?x with _ => _ end) => destruct x
  | |- fin _ _ _ (let _ := _ in _) => cbv zeta
  end ].

Lemma fin_PI : forall k, fin k true any (parsePI E S H).
Proof. intros k. unfold parsePI. eapply fin_eat; [apply fin_lift, pok_PI|]. intros; apply fin_emit; exact I. Qed.
Lemma fin_comment : forall k, fin k true any (parseComment E S H).
Proof. intros k. unfold parseComment. eapply fin_eat; [apply fin_lift, pok_comment|]. intros; apply fin_emit; exact I. Qed.
Lemma fin_charData : forall k, fin k true any (parseCharData E S H false).
Proof. intros k. unfold parseCharData. eapply fin_eat with (b := false); [apply fin_lift, pok_chardata|]. intros; repeat fstep. Qed.

(* the same at one state *)
Definition at1 (b : bool) {A} (Q : A -> Prop) (m : M S A) (s : pst S) : Prop :=
  fst (m s) <> Oof /\ J (snd (m s)) /\ suffix (inp (snd (m s))) (inp s) /\ depth (snd (m s)) = depth s /\
  (forall a, fst (m s) = Ret a -> Q a /\ (b = true -> (List.length (inp (snd (m s))) < List.length (inp s))%nat)).
Lemma fin_at : forall k b A (Q : A -> Prop) m, fin k b Q m <-> (forall s, J s -> (need s <= k)%nat -> at1 b Q m s).
Proof. intros; reflexivity. Qed.
Lemma at_bind : forall k b A B (Q : A -> Prop) (R : B -> Prop) m (f : A -> M S B) s,
  at1 false Q m s -> (need s <= k)%nat -> (forall a, Q a -> fin k b R (f a)) -> at1 b R (bind S m f) s.
Proof.
  intros k b A B Q R m f s (F1 & F2 & F3 & F4 & F5) Hn Hf. unfold at1, bind.
  destruct (m s) as [[a|e| |] s']; cbn [fst snd] in *.
  - destruct (F5 a eq_refl) as [Qa _]. pose proof (need_suffix _ _ F3 F4) as Hn'.
    destruct (Hf a Qa s' F2 ltac:(lia)) as (G1 & G2 & G3 & G4 & G5).
    split; auto. split; auto. split; [eapply suffix_trans; eauto|]. split; [congruence|].
    intros b0 Hb0. destruct (G5 b0 Hb0) as [Qb Lt]. split; auto. intros Hb. specialize (Lt Hb). apply suffix_length in F3. lia.
  - s5; auto; discriminate.
  - s5; auto; discriminate.
  - congruence.
Qed.
Lemma at_then : forall k b A B (Q : A -> Prop) (R : B -> Prop) m (f : A -> M S B) s,
  at1 false Q m s -> (need s <= k)%nat ->
  (forall a s', m s = (Ret a, s') -> Q a -> J s' -> (need s' <= k)%nat -> suffix (inp s') (inp s) -> at1 b R (f a) s') -> at1 b R (bind S m f) s.
Proof.
  intros k b A B Q R m f s (F1 & F2 & F3 & F4 & F5) Hn Hf. unfold at1, bind.
  destruct (m s) as [[a|e| |] s']; cbn [fst snd] in *.
  - destruct (F5 a eq_refl) as [Qa _]. pose proof (need_suffix _ _ F3 F4) as Hn'.
    destruct (Hf a s' eq_refl Qa F2 ltac:(lia) F3) as (G1 & G2 & G3 & G4 & G5).
    split; auto. split; auto. split; [eapply suffix_trans; eauto|]. split; [congruence|].
    intros b0 Hb0. destruct (G5 b0 Hb0) as [Qb Lt]. split; auto. intros Hb. specialize (Lt Hb). apply suffix_length in F3. lia.
  - s5; auto; discriminate.
  - s5; auto; discriminate.
  - congruence.
Qed.
(* with an account of what m consumes *)
Lemma at_strict : forall A (Q : A -> Prop) m s, at1 false Q m s ->
  (forall a s', m s = (Ret a, s') -> (List.length (inp s') < List.length (inp s))%nat) -> at1 true Q m s.
Proof.
  intros A Q m s (F1 & F2 & F3 & F4 & F5) Hl. s5; auto. intros a Ha. destruct (F5 a Ha) as [Qa _]. split; [auto|]. intros _.
  destruct (m s) as [o s']; cbn [fst snd] in *; subst o. eapply Hl; eauto.
Qed.
Lemma at_eat : forall k b b' A B (Q : A -> Prop) (R : B -> Prop) m (f : A -> M S B) s,
  at1 true Q m s -> (need s <= Datatypes.S k)%nat -> (forall a, Q a -> fin k b R (f a)) -> at1 b' R (bind S m f) s.
Proof.
  intros k b b' A B Q R m f s (F1 & F2 & F3 & F4 & F5) Hn Hf. unfold at1, bind.
  destruct (m s) as [[a|e| |] s']; cbn [fst snd] in *.
  - destruct (F5 a eq_refl) as [Qa Lt]. specialize (Lt eq_refl).
    assert (Hn' : (need s' < need s)%nat) by (unfold need; rewrite F4; lia).
    destruct (Hf a Qa s' F2 ltac:(lia)) as (G1 & G2 & G3 & G4 & G5).
    split; auto. split; auto. split; [eapply suffix_trans; eauto|]. split; [congruence|].
    intros b0 Hb0. destruct (G5 b0 Hb0) as [Qb _]. split; auto. intros _. apply suffix_length in G3. lia.
  - s5; auto; discriminate.
  - s5; auto; discriminate.
  - congruence.
Qed.
Lemma fin_peek_at : forall k b A (Q : A -> Prop) (f : Z -> M S A),
  (forall s, J s -> (need s <= k)%nat -> at1 b Q (f (peek E (inp s))) s) -> fin k b Q (bind S (mpeek E S) f).
Proof.
  intros k b A Q f Hf s Hs Hn. specialize (Hf s Hs Hn).
  assert (Hb : bind S (mpeek E S) f s = f (peek E (inp s)) s).
  { unfold bind, mpeek, lift, ppeek. destruct s; reflexivity. }
  unfold at1 in Hf. rewrite <- Hb in Hf. exact Hf.
Qed.
Lemma at_adv : forall s n, J s -> inp s <> [] -> (1 <= n)%nat -> at1 true any (madvance E S n) s.
Proof.
  intros s n (J1 & J2 & J3) Hne Hn. unfold at1, madvance, lift, padvance. cbn.
  s5; unfold J; cbn; auto; try discriminate.
  - split; auto. eapply CS; [eauto|apply suffix_advance; auto].
  - apply suffix_advance; auto.
  - intros a _. split; [exact I|]. intros _. apply advance_less; auto.
Qed.
Lemma at_fin : forall k b A (Q : A -> Prop) m s, J s -> (need s <= k)%nat -> fin k b Q m -> at1 b Q m s.
Proof. intros k b A Q m s Hs Hn Hm. apply Hm; auto. Qed.
Lemma ischar_nonempty : forall l, isChar (peek E l) = true -> l <> [].
Proof. intros [|c l] Hc; [|discriminate]. unfold peek in Hc. simpl in Hc. destruct (ok_eofr E OK) as [e|e]; rewrite e in Hc; discriminate. Qed.

Lemma fin_CDSect : forall k, fin k true any (parseCDSect E S H).
Proof.
  intros k s Hs Hn. pose proof Hs as (J1 & J2 & J3). unfold parseCDSect.
  set (rest := fun ok : bool => if negb ok then failw S "ErrInvalidCDSect"
     else bind S (wrap S (parseCharData E S H true)) (fun _ => bind S (mconsume S (s_ "]]>")) (fun ok2 => if negb ok2 then failw S "ErrCDATANotFinished" else ret S tt))).
  assert (Hc : bind S (mconsume S (s_ "<![CDATA[")) rest s =
    if has_prefix (s_ "<![CDATA[") (inp s) then rest true (set_inp S (skipn (List.length (s_ "<![CDATA[")) (inp s)) s)
    else rest false (set_inp S (inp s) s)).
  { unfold bind, mconsume, lift, pconsume. destruct (has_prefix _ _); reflexivity. }
  rewrite Hc. clear Hc. destruct (has_prefix _ _) eqn:Hp.
  2:{ unfold rest; cbn. s5; unfold J; cbn; auto; try discriminate. apply suffix_refl. }
  apply has_prefix_true in Hp as (r & Hr).
  set (s1 := set_inp S (skipn (List.length (s_ "<![CDATA[")) (inp s)) s).
  assert (Hi : inp s1 = r). { unfold s1. cbn [inp set_inp]. rewrite Hr, skipn_app, skipn_all, Nat.sub_diag. reflexivity. }
  assert (Hs1 : J s1). { unfold J. rewrite Hi. split; [|auto]. eapply CS; [exact J1|]. exists (s_ "<![CDATA["); auto. }
  assert (Hlen : (List.length (inp s1) < List.length (inp s))%nat).
  { rewrite Hi, Hr, app_length. change (List.length (s_ "<![CDATA[")) with 9%nat. lia. }
  assert (Hn1 : (need s1 <= k)%nat). { unfold need in *. cbn [depth set_inp s1] in *. change (depth s1) with (depth s). lia. }
  assert (Hterm : charDataLoop E true r <> CDHang). { apply cdata_ends. apply CD. rewrite <- Hr. exact J1. }
  assert (Hat : at1 false any (rest true) s1).
  { unfold rest. cbn [negb]. apply at_bind with (k := k) (Q := any); auto.
    - assert (X : at1 false any (parseCharData E S H true) s1).
      { unfold parseCharData. apply at_bind with (k := k) (Q := any); auto.
        - unfold at1, lift. rewrite Hi. assert (Hno : fst (scanCharData E true r) <> Oof).
          { unfold scanCharData. destruct (charDataLoop E true r) as [[|c cs]| |]; cbn; congruence. }
          pose proof (psuf_chardata E OK true r) as Hsf. destruct (scanCharData E true r) as [o l]. cbn [fst snd] in *.
          s5; auto; [|intros a _; split; [exact I|discriminate]].
          destruct Hs1 as (X1 & X2 & X3). rewrite Hi in X1. unfold J; cbn [inp hs inSubset set_inp]. split; [eapply CS; eauto|auto].
        - intros t _. apply fin_emit; exact I. }
      unfold at1, wrap in *. destruct (parseCharData E S H true s1) as [[a|e| |] s2]; cbn [fst snd] in *; auto.
      destruct X as (F1 & F2 & F3 & F4 & F5). s5; auto; discriminate.
    - intros _ _. repeat fstep. }
  destruct Hat as (F1 & F2 & F3 & F4 & F5). s5; auto.
  - eapply suffix_trans; [exact F3|]. rewrite Hi, Hr. exists (s_ "<![CDATA["); auto.
  - intros a Ha. split; [exact I|]. intros _. apply suffix_length in F3. lia.
Qed.

Lemma fin_query : forall k n, fin k false (fun a => forall e, fst a = Some (Real e) -> (small C L) e) (queryEntity S H n).
Proof.
  intros k n s (J1 & J2 & J3) Hn. unfold queryEntity. destruct (GG (hs s) (the_view S s) n J2) as [G1 G2].
  destruct (h_getEntity H (hs s) (the_view S s) n) as [h' [e b|]]; cbn [fst snd] in *; s5; unfold J; cbn; auto; try discriminate; try apply suffix_refl.
  intros a Ha. inversion Ha; subst. split; [|discriminate]. cbn [fst]. intros e0 ->. eapply G2; eauto.
Qed.
Lemma fin_getEntity : forall k n, fin k false (fun r => forall e, r = Some e -> small C L e) (getEntity S H n).
Proof.
  intros k n s (J1 & J2 & J3) Hn. unfold getEntity. destruct (Z.eqb_spec (inSubset s) 0) as [Hz|Hz].
  - cbn. s5; unfold J; cbn; auto; try discriminate; try apply suffix_refl. intros a Ha. inversion Ha; subst. split; [discriminate|discriminate].
  - destruct (h_docEntity H (hs s) n) as [r|] eqn:Hr; cbn; s5; unfold J; cbn; auto; try discriminate; try apply suffix_refl.
    intros a Ha. inversion Ha; subst. split; [|discriminate]. intros e ->. destruct J3 as [J3|J3]; [congruence|]. eapply GD; eauto.
Qed.
Lemma fin_entityRef : forall k, fin k true (small C L) (parseEntityRef E S H).
Proof.
  intros k. unfold parseEntityRef. eapply fin_bind; [fsolve|]. intros c _. destruct (negb _); [fsolve|].
  eapply fin_bind; [fsolve|]. intros _ _. eapply fin_eat with (b := false) (Q := any); [apply fin_lift, pok_else, pok_name|].
  intros name k' _ _. eapply fin_bind; [fsolve|]. intros c2 _. destruct (negb _); [fsolve|].
  eapply fin_bind; [fsolve|]. intros _ _. destruct (predefined name).
  { apply fin_ret. unfold small. cbn. discriminate. }
  eapply fin_bind; [apply fin_query|]. intros [a err] Ha. cbn [fst snd] in *. destruct (negb err).
  { destruct a as [[e|]|]; try fsolve. apply fin_ret. auto. }
  eapply fin_bind with (Q := fun r => forall e, r = Some e -> small C L e).
  { destruct a; [apply fin_ret; discriminate|apply fin_getEntity]. }
  intros me Hme. destruct me as [e|]; [|repeat fstep]. destruct (_ =? _); [fsolve|]. destruct (_ =? _); [fsolve|]. apply fin_ret. auto.
Qed.
Lemma rtrim_runs : forall v, rtrim v <> Oof. Proof. intros v. unfold rtrim. destruct (rev v); discriminate. Qed.
Lemma norm_runs : forall v, attrNormalizeSpace v <> Oof.
Proof. intros v. unfold attrNormalizeSpace. destruct v; [discriminate|]. destruct (rev _); discriminate. Qed.
Lemma fin_valueLoop : forall k q nm b sp en, fin k false any (attrValueLoop E S H (Datatypes.S k) q nm b sp en).
Proof.
  induction k as [k IH] using lt_wf_ind. intros q nm b sp en. cbn [attrValueLoop]. apply fin_peek_at. intros s Hs Hn.
  destruct ((peek E (inp s) =? q) || negb (isChar (peek E (inp s))) || (peek E (inp s) =? 60)) eqn:Hstop.
  { apply at_fin with (k := k); auto. destruct (sp && nm); [|fsolve]. eapply fin_bind; [apply fin_mlift, rtrim_runs|]. intros; fsolve. }
  apply orb_false_iff in Hstop as [Hstop _]. apply orb_false_iff in Hstop as [_ Hch]. apply negb_false_iff in Hch.
  pose proof (ischar_nonempty _ Hch) as Hne.
  assert (Hk : exists k', k = Datatypes.S k').
  { destruct k; [|eauto]. exfalso. unfold need in Hn. destruct (inp s); [congruence|]. cbn [List.length Nat.add] in Hn. inversion Hn. }
  destruct Hk as (k' & ->).
  destruct (peek E (inp s) =? 38).
  { apply at_fin with (k := Datatypes.S k'); auto. eapply fin_bind; [fsolve|]. intros c2 _. destruct (c2 =? 35).
    - eapply fin_eat with (b := false); [apply fin_wrap, fin_lift, pok_charref|]. intros a k0 Hk0 _. inversion Hk0; subst. apply IH. lia.
    - eapply fin_eat with (b := false); [apply fin_wrap, fin_entityRef|]. intros a k0 Hk0 _. inversion Hk0; subst. apply IH. lia. }
  destruct (_ || _).
  { cbv zeta. eapply at_eat with (k := k') (b := false); [apply at_adv; auto|auto|]. intros _ _. apply IH. lia. }
  eapply at_eat with (k := k') (b := false); [apply at_adv; auto|auto|]. intros _ _. apply IH. lia.
Qed.
Lemma fin_attrValue : forall k nm, fin k false any (parseAttributeValue E S H (Datatypes.S k) nm).
Proof.
  intros k nm. unfold parseAttributeValue, parseAttributeValueInternal. eapply fin_bind; [fsolve|]. intros q _.
  destruct (_ || _); [|fsolve]. eapply fin_bind; [fsolve|]. intros _ _. apply fin_always; [apply fin_valueLoop|].
  intros l. cbn [snd]. destruct (_ =? _); [apply suffix_advance; auto|apply suffix_refl].
Qed.
Lemma fin_attribute : forall k nm, fin k true any (parseAttribute E S H k nm).
Proof.
  intros k nm. unfold parseAttribute. eapply fin_eat with (b := false); [apply fin_lift, pok_wrap, pok_qname|].
  intros [l p] k' -> _. eapply fin_bind; [fsolve|]. intros sp _. cbv zeta.
  eapply fin_bind; [fsolve|]. intros _ _. eapply fin_bind; [fsolve|]. intros _ _. eapply fin_bind; [fsolve|]. intros _ _.
  eapply fin_bind; [apply fin_wrap, fin_attrValue|]. intros ve _.
  eapply fin_bind with (Q := any); [destruct (_ && _); [apply fin_mlift, norm_runs|fsolve]|]. intros; fsolve.
Qed.
Lemma fin_afterNS : forall k, fin k false any (afterNSDecl E S).
Proof. intros k. unfold afterNSDecl. repeat fstep. Qed.
Lemma fin_pushNS : forall k f, fin k false any (modify S (fun s => set_nsTab S (f s) s)).
Proof. intros; apply fin_modify. intros s; repeat split. Qed.
Lemma fin_attrLoop : forall k l a nb, fin k false any (attrLoop E S H (Datatypes.S k) l a nb).
Proof.
  induction k as [k IH] using lt_wf_ind. intros l a nb. cbn [attrLoop]. eapply fin_bind; [fsolve|]. intros _ _.
  eapply fin_bind; [fsolve|]. intros c _. destruct (c =? 62). { eapply fin_bind; [fsolve|]. intros; fsolve. }
  eapply fin_bind; [fsolve|]. intros c2 _. destruct (_ && _); [fsolve|].
  eapply fin_eat with (b := false); [apply fin_wrap, fin_attribute|]. intros [[an ap] av] k' -> _. cbv zeta.
  assert (IH' : forall l a nb, fin k' false any (attrLoop E S H (Datatypes.S k') l a nb)) by (intros; apply IH; lia).
  destruct (_ && _).
  { eapply fin_bind; [apply fin_pushNS|]. intros _ _. eapply fin_bind; [apply fin_afterNS|]. intros [|] _; auto. }
  destruct (str_eqb ap s_xmlns); [|auto].
  destruct (str_eqb an s_xml). { destruct (negb _); [fsolve|]. eapply fin_bind; [apply fin_afterNS|]. auto. }
  destruct (str_eqb an s_xmlns); [fsolve|]. destruct (str_eqb av XMLNSNamespace); [fsolve|]. destruct (str_eqb av []); [fsolve|].
  destruct (negb _); [fsolve|]. eapply fin_bind; [fsolve|]. intros tab _. destruct (negb _); [fsolve|].
  eapply fin_bind; [apply fin_pushNS|]. intros _ _. eapply fin_bind; [apply fin_afterNS|]. auto.
Qed.
Lemma fin_startTag : forall k, fin k true any (parseStartTag E S H k).
Proof.
  intros k. unfold parseStartTag. eapply fin_bind; [fsolve|]. intros c _. destruct (negb _); [fsolve|].
  eapply fin_bind; [fsolve|]. intros _ _. eapply fin_eat with (b := false); [apply fin_lift, pok_else, pok_qname|].
  intros [l p] k' -> _. destruct l as [|x l]; [fsolve|].
  eapply fin_bind; [apply fin_attrLoop|]. intros [at0 nb] _. eapply fin_bind; [fsolve|]. intros d _. cbv zeta.
  eapply fin_bind; [fsolve|]. intros tab _. destruct (_ && _); [fsolve|]. eapply fin_bind; [fsolve|]. intros _ _.
  apply fin_modify. intros s; repeat split.
Qed.
Lemma fin_endTag : forall k, fin k false any (parseEndTag E S H).
Proof.
  intros k. unfold parseEndTag. eapply fin_bind; [fsolve|]. intros e _. eapply fin_bind; [fsolve|]. intros nodes _.
  eapply fin_bind with (Q := any).
  { repeat fstep. }
  intros _ _. destruct nodes as [|[[l p] u] r]; [fsolve|]. eapply fin_bind; [fsolve|]. intros _ _. apply fin_modify. intros s; repeat split.
Qed.
Lemma fin_element : forall k content, (forall k', k = Datatypes.S k' -> fin k' false any content) -> fin k true any (parseElement E S H k content).
Proof.
  intros k content Hc. unfold parseElement. eapply fin_eat with (b := false); [apply fin_wrap, fin_startTag|].
  intros _ k' Hk _. eapply fin_bind; [fsolve|]. intros e _. eapply fin_bind with (Q := any).
  { destruct e; [fsolve|]. apply fin_wrap; auto. }
  intros _ _. apply fin_wrap, fin_endTag.
Qed.
Lemma fin_chunk : forall k content c, (forall k', k = Datatypes.S k' -> fin k' false any content) ->
  (List.length (runes_of c) <= L)%nat -> C (runes_of c) -> fin k false any (parseBalancedChunk S H content c).
Proof.
  intros k content c Hcont Hlen Hcalm s Hs Hn. unfold parseBalancedChunk. cbv zeta. destruct (Z.ltb_spec 40 (depth s + 1)).
  { cbn. s5; auto; try discriminate. apply suffix_refl. }
  match goal with |- context [content ?x] => set (s0 := x) end.
  pose proof Hs as (J1 & J2 & J3).
  assert (Hs0 : J s0) by (unfold J, s0; cbn; auto).
  assert (Hn0 : (need s0 + 1 <= need s)%nat).
  { unfold need, s0; cbn [inp depth]. replace (Z.to_nat (41 - depth s)) with (2 + Z.to_nat (41 - (depth s + 1 + 1)))%nat by lia. lia. }
  destruct k as [|k']; [lia|].
  destruct (Hcont k' eq_refl s0 Hs0 ltac:(lia)) as (F1 & F2 & F3 & F4 & F5).
  destruct (content s0) as [o s1]. cbn [fst snd] in *. s5; unfold J; cbn; auto.
  - split; [auto|]. split; [|auto]. apply GL; auto. apply F2.
  - apply suffix_refl.
  - intros a _. split; [exact I|discriminate].
Qed.
Lemma fin_reference : forall k content, (forall k', (k' < k)%nat -> fin k' false any content) -> fin k true any (parseReference E S H content).
Proof.
  intros k content Hc. unfold parseReference. eapply fin_bind; [fsolve|]. intros c _. destruct (negb _); [fsolve|].
  eapply fin_bind; [fsolve|]. intros c2 _. destruct (c2 =? 35).
  { eapply fin_eat with (b := false); [apply fin_wrap, fin_lift, pok_charref|]. intros; fsolve. }
  eapply fin_eat with (b := false); [apply fin_wrap, fin_entityRef|]. intros e k' -> He.
  destruct (_ || _); [repeat fstep|]. destruct (_ =? ExternalGeneralParsedEntity); [fsolve|].
  destruct (Z.eqb_spec (e_type e) InternalGeneralEntity) as [Ht|Ht]; [|fsolve].
  destruct (He Ht) as [He1 He2].
  eapply fin_bind; [apply fin_chunk; auto; intros k0 ->; apply Hc; lia|]. intros; fsolve.
Qed.
Lemma fin_content : forall k, fin k false any (parseContent E S H (Datatypes.S k)).
Proof.
  induction k as [k IH] using lt_wf_ind. cbn [parseContent]. eapply fin_bind; [fsolve|]. intros [|] _; [fsolve|].
  intros s Hs Hn. cbv zeta.
  assert (IHk : forall (a : unit) k', k = Datatypes.S k' -> any a -> fin k' false any (parseContent E S H k)) by (intros a k' -> _; apply IH; lia).
  assert (IHk' : forall k', k = Datatypes.S k' -> fin k' false any (parseContent E S H k)) by (intros; apply (IHk tt); auto; exact I).
  destruct (has_prefix (s_ "</") (inp s)). { apply (fin_ret k); auto. exact I. }
  destruct (has_prefix (s_ "<?") (inp s)).
  { eapply (fin_eat k false false); [apply fin_wrap, fin_PI|exact IHk|auto|auto]. }
  destruct (has_prefix (s_ "<![CDATA[") (inp s)).
  { eapply (fin_eat k false false); [apply fin_wrap, fin_CDSect|exact IHk|auto|auto]. }
  destruct (has_prefix (s_ "<!--") (inp s)).
  { eapply (fin_eat k false false); [apply fin_wrap, fin_comment|exact IHk|auto|auto]. }
  destruct (has_prefix (s_ "<") (inp s)).
  { eapply (fin_eat k false false); [apply fin_wrap, fin_element; exact IHk'|exact IHk|auto|auto]. }
  destruct (has_prefix (s_ "&") (inp s)).
  { eapply (fin_eat k false false); [apply fin_wrap, fin_reference|exact IHk|auto|auto].
    intros k' Hk. destruct k as [|k0]; [lia|]. apply fin_weak with (k := k0) (b := false) (Q := any); [apply IH; lia|lia]. }
  eapply (fin_eat k false false); [apply fin_charData|exact IHk|auto|auto].
Qed.
Lemma fin_misc : forall k, fin k false any (parseMisc E S H (Datatypes.S k)).
Proof.
  induction k as [k IH] using lt_wf_ind. cbn [parseMisc]. eapply fin_bind; [fsolve|]. intros [|] _; [fsolve|].
  intros s Hs Hn. cbv zeta.
  assert (IHk : forall (a : unit) k', k = Datatypes.S k' -> any a -> fin k' false any (parseMisc E S H k)) by (intros a k' -> _; apply IH; lia).
  destruct (has_prefix (s_ "<?") (inp s)).
  { eapply (fin_eat k false false); [apply fin_wrap, fin_PI|exact IHk|auto|auto]. }
  destruct (has_prefix (s_ "<!--") (inp s)).
  { eapply (fin_eat k false false); [apply fin_wrap, fin_comment|exact IHk|auto|auto]. }
  destruct (isBlankCh (peek E (inp s))) eqn:Hb; [|apply (fin_ret k); auto; exact I].
  assert (Hat : at1 true any (mskip S) s).
  { destruct (fin_skip k s Hs Hn) as (F1 & F2 & F3 & F4 & F5). unfold at1. s5; auto. intros a _. split; [exact I|]. intros _.
    unfold mskip, lift, skipBlanks. cbn. destruct (inp s) as [|x t] eqn:Hi.
    - exfalso. unfold peek in Hb. simpl in Hb. destruct (ok_eofr E OK) as [e|e]; rewrite e in Hb; discriminate.
    - unfold peek in Hb. simpl in Hb. cbn [dropW List.length]. rewrite Hb. pose proof (suffix_length _ _ (suffix_dropW isBlankCh t)). lia. }
  destruct k as [|k'].
  - exfalso. destruct Hat as (_ & _ & _ & _ & F5). unfold mskip, lift, skipBlanks in F5. cbn in F5.
    destruct (F5 _ eq_refl) as [_ Lt]. specialize (Lt eq_refl). unfold need in Hn. destruct (inp s); cbn [List.length Nat.add] in *; [lia|inversion Hn].
  - change (at1 false any (bind S (mskip S) (fun _ => parseMisc E S H (Datatypes.S k'))) s).
    eapply at_eat with (k := k') (b := false); [exact Hat|auto|]. intros _ _. apply IH. lia.
Qed.

(* ---- the document: before the bytes are decoded ---- *)
Definition pno {A} (p : P A) : Prop := forall l, fst (p l) <> Oof.
Lemma pno_bind : forall A B (p : P A) (f : A -> P B), pno p -> (forall a, pno (f a)) -> pno (pbind p f).
Proof. intros A B p f Hp Hf l. unfold pbind. specialize (Hp l). destruct (p l) as [[a|e| |] l']; cbn in *; try discriminate; auto. apply Hf. Qed.
Lemma pno_ret : forall A (a : A), pno (pret a). Proof. intros A a l; discriminate. Qed.
Lemma pno_fail : forall A e, pno (@pfail A e). Proof. intros A a l; discriminate. Qed.
Lemma pno_failw : forall A e, pno (@pfailw A e). Proof. intros A a l; discriminate. Qed.
Lemma pno_fun : forall A (g : list Z -> A) h, pno (fun l => (Ret (g l), h l)). Proof. intros A g h l; discriminate. Qed.
Lemma pno_wrap : forall A (p : P A), pno p -> pno (pwrap p).
Proof. intros A p Hp l. unfold pwrap. specialize (Hp l). destruct (p l) as [[a|e| |] l']; cbn in *; congruence. Qed.
Lemma pno_try : forall A (p : P A), pno p -> pno (ptry p).
Proof. intros A p Hp l. unfold ptry. specialize (Hp l). destruct (p l) as [[a|e| |] l']; cbn in *; congruence. Qed.
Lemma pno_consume : forall p, pno (pconsume p). Proof. intros p l. unfold pconsume. destruct (has_prefix _ _); discriminate. Qed.
Lemma pno_bclose : pno (pbclose E). Proof. intros l. unfold pbclose. destruct (_ && _); discriminate. Qed.
Lemma pno_skipb : pno (skipBlankBytes E).
Proof. intros l. unfold skipBlankBytes. destruct (Nat.eqb _ _); [discriminate|]. destruct (_ && _); discriminate. Qed.
Ltac nstep := first
  [ assumption | apply pno_ret | apply pno_fail | apply pno_failw | apply pno_fun | apply pno_consume | apply pno_bclose | apply pno_skipb
  | match goal with
    | |- forall _, _ => intro
    | |- pno (pbind _ _) => apply pno_bind
    | |- pno (pwrap _) => apply pno_wrap
    | |- pno (ptry _) => apply pno_try
    | |- pno (if ?b then _ else _) => destruct b
    | |- pno (match ?x with _ => _ end) => destruct x
    | |- pno (let _ := _ in _) => cbv zeta
    end ].
Lemma pno_quoted : forall p, pno p -> pno (parseQuotedTextBytes E p).
Proof. intros p Hp. unfold parseQuotedTextBytes. repeat nstep. Qed.
Lemma pno_named : forall n p, pno p -> pno (parseNamedAttributeBytes E n p).
Proof. intros n p Hp. unfold parseNamedAttributeBytes. repeat nstep. apply pno_quoted; auto. Qed.
Lemma pno_version : pno (parseVersionNum E).
Proof. intros l. unfold parseVersionNum. repeat (destruct (negb _); [discriminate|]). discriminate. Qed.
Lemma pno_encname : pno (parseEncodingName E).
Proof. intros l. unfold parseEncodingName. destruct (negb _); discriminate. Qed.
Lemma pno_savalue : pno parseStandaloneDeclValue.
Proof. unfold parseStandaloneDeclValue. repeat nstep. Qed.
Lemma pno_standalone : pno (parseStandaloneDecl E).
Proof. unfold parseStandaloneDecl. repeat nstep. apply pno_named, pno_savalue. Qed.
Lemma pno_xmldecl : pno (parseXMLDecl E).
Proof.
  unfold parseXMLDecl. repeat nstep; try (apply pno_named; first [apply pno_version | apply pno_encname]); try apply pno_standalone.
Qed.

Lemma detect_suffix : forall l enc r, detectEncoding l = Some (enc, r) -> suffix r l.
Proof.
  assert (Co : forall p l r, consume p l = Some r -> suffix r l).
  { intros p l r. unfold consume. destruct (has_prefix p l) eqn:Hp; [|discriminate]. intros Hr. inversion Hr; subst.
    exists (firstn (List.length p) l). symmetry. apply firstn_skipn. }
  intros l enc r Hd. unfold detectEncoding in Hd.
  repeat match type of Hd with
         | match consume ?p ?x with _ => _ end = _ => destruct (consume p x) eqn:?; [inversion Hd; subst; eapply Co; eassumption|]
         | (if ?b then _ else _) = _ => destruct b; [inversion Hd; subst; apply suffix_refl|]
         end.
  discriminate.
Qed.
Variable bytes : str.
Definition K (s : pst S) : Prop := good (hs s) /\ inSubset s = 0 /\ depth s = 0 /\ suffix (inp s) bytes.
Lemma pre_bind : forall A B (m : M S A) (f : A -> M S B) s,
  (fst (m s) <> Oof /\ K (snd (m s))) -> (forall a s', K s' -> fst (f a s') <> Oof) -> fst (bind S m f s) <> Oof.
Proof. intros A B m f s [H1 H2] Hf. unfold bind. destruct (m s) as [[a|e| |] s']; cbn in *; try discriminate; auto. Qed.
Hypothesis BY : forall c rest, suffix rest bytes -> C (decode E c rest).

(* no document type declaration, or one that is read, under a further
   condition on the document *)
Variable X : list Z -> Prop.
Hypothesis XS : forall l l', X l -> suffix l' l -> X l'.
Hypothesis XB : forall c rest, suffix rest bytes -> X (decode E c rest).
Hypothesis DT : (forall l, C l -> has_prefix (s_ "<!DOCTYPE") l = false) \/
  (forall k s, J s -> (need s <= k)%nat -> X (inp s) -> at1 false any (parseDTD E S H (Datatypes.S k)) s).
Theorem Parse_runs : forall n h, good h ->
  (forall c rest, suffix rest bytes -> (List.length (decode E c rest) + (L + 2) * 41 < n)%nat) ->
  fst (Parse E S H n h bytes) <> Oof.
Proof.
  intros n h Hh Hn. unfold Parse, parseDocument.
  assert (Hinit : K (init S h bytes)) by (unfold K, init; cbn; repeat split; auto; apply suffix_refl).
  revert Hinit. generalize (init S h bytes). intros s Hs.
  apply pre_bind.
  { destruct Hs as (K1 & K2 & K3 & K4). unfold emit, wrap, emit_raw.
    pose proof (GE (hs s) (the_view S s) ESetDocumentLocator K1 I) as G. destruct (h_event _ _ _ _) as [h' r]; cbn [fst] in G.
    destruct r; cbn; (split; [discriminate|]); unfold K; cbn; auto. }
  clear s Hs. intros _ s Hs. apply pre_bind.
  { destruct (detectEncoding (inp s)) as [[enc rest]|] eqn:Hd; cbn; (split; [discriminate|]); auto.
    destruct Hs as (K1 & K2 & K3 & K4). unfold K; cbn. repeat split; auto. eapply suffix_trans; [|exact K4].
    eapply detect_suffix; eauto. }
  clear s Hs. intros detected s Hs. apply pre_bind; [cbn; split; [discriminate|auto]|].
  clear s Hs. intros [|] s Hs; [discriminate|]. apply pre_bind; [cbn; split; [discriminate|destruct Hs as (K1&K2&K3&K4); unfold K; cbn; auto]|].
  clear s Hs. intros decl s Hs. apply pre_bind.
  { destruct decl; [|cbn; split; [discriminate|auto]]. unfold bind, lift.
    pose proof (pno_wrap _ _ pno_xmldecl (inp s)) as N1. pose proof (psuf_wrap _ _ (psuf_xmldecl E OK) (inp s)) as N2.
    destruct (pwrap (parseXMLDecl E) (inp s)) as [[x|e| |] l]; cbn [fst snd] in *; [| | |congruence];
      (split; [discriminate|]); destruct Hs as (K1&K2&K3&K4); unfold K; cbn; repeat split; auto; eapply suffix_trans; eauto. }
  clear s Hs. intros _ s Hs.
  set (rest := fun _ : unit => _). unfold bind, wrap, switchEncoding.
  destruct (Load _ _) as [c|]; cbn [fst ctx_error]; [|discriminate].
  set (s1 := set_inp S (decode E c (inp s)) s).
  destruct Hs as (K1 & K2 & K3 & K4).
  assert (Hs1 : J s1). { unfold J, s1; cbn. split; auto. }
  assert (Hn1 : exists k, n = Datatypes.S k /\ (need s1 <= k)%nat).
  { specialize (Hn c (inp s) K4). unfold need, s1; cbn [inp depth set_inp]. rewrite K3. change (Z.to_nat (41 - 0)) with 41%nat.
    destruct n as [|k]; [lia|]. exists k. split; auto. lia. }
  destruct Hn1 as (k & -> & Hk).
  assert (Hx1 : X (inp s1)) by (unfold s1; cbn; auto).
  assert (Hfin : forall s2, J s2 -> (need s2 <= k)%nat -> X (inp s2) -> at1 false any (rest tt) s2); [|apply Hfin; auto].
  clear s1 Hs1 Hk Hx1. intros s2 Hs2 Hn2 Hx2. unfold rest.
  assert (Z2 : fin k false any (
    bind S (mskip S) (fun _ => bind S (mpeek E S) (fun c => if negb (c =? 60) then failw S "ErrEmptyDocument" else
      bind S (wrap S (parseElement E S H (Datatypes.S k) (parseContent E S H (Datatypes.S k)))) (fun _ =>
      bind S (wrap S (parseMisc E S H (Datatypes.S k))) (fun _ => bind S (mdone S) (fun fi => if negb fi then failw S "ErrDocumentEnd" else emit S H EEndDocument)))))));
    [clear s2 Hs2 Hn2 Hx2|].
  2:{ eapply at_then; [refine (fin_emit k EStartDocument I s2 Hs2 Hn2)|exact Hn2|]. intros _ s3 _ _ Hs3 Hn3 Hx3.
    eapply at_then; [refine (fin_wrap k _ _ _ _ (fin_misc k) s3 Hs3 Hn3)|exact Hn3|]. intros _ s4 _ _ Hs4 Hn4 Hx4.
    assert (X4 : X (inp s4)) by (eapply XS; [exact Hx2|]; eapply suffix_trans; eauto).
    assert (Y : forall f : bool -> M S unit, bind S (mhas S (s_ "<!DOCTYPE")) f s4 = f (has_prefix (s_ "<!DOCTYPE") (inp s4)) s4).
    { intros f. unfold bind, mhas, lift, phas. destruct s4; reflexivity. }
    unfold at1. rewrite Y. destruct DT as [Hd|Hd].
    - rewrite Hd by apply Hs4. refine (fin_bind k false _ _ any any _ _ (fin_ret _ _ _ _ I) _ s4 Hs4 Hn4). intros _ _. exact Z2.
    - destruct (has_prefix _ _).
      + eapply at_bind; [apply Hd; [exact Hs4|exact Hn4|exact X4]|exact Hn4|]. intros _ _. exact Z2.
      + refine (fin_bind k false _ _ any any _ _ (fin_ret _ _ _ _ I) _ s4 Hs4 Hn4). intros _ _. exact Z2. }
  eapply fin_bind; [fsolve|]. intros _ _.
  eapply fin_bind; [fsolve|]. intros ch _. destruct (negb _); [fsolve|].
  eapply fin_bind.
  { apply fin_wrap. eapply fin_weak; [|apply Nat.le_refl].
    assert (Z1 : forall k0, fin k0 true any (parseElement E S H (Datatypes.S k0) (parseContent E S H (Datatypes.S k0)))).
    { intros k0. apply fin_weak' with (k := Datatypes.S k0); [|lia]. apply fin_element. intros k' Hk'. inversion Hk'; subst. apply fin_content. }
    apply Z1. }
  intros _ _. eapply fin_bind; [apply fin_wrap, fin_misc|]. intros _ _. eapply fin_bind; [fsolve|]. intros fi _.
  destruct (negb _); fsolve.
Qed.
End M.
End T.

(* without a document type declaration *)
Theorem Parse_terminates : forall E, env_ok E -> (forall n l, l <> [] -> (List.length (over E n l) < List.length l)%nat) ->
  forall S (H : handler S) (good : S -> Prop) L,
  (forall h v e, good h -> good (fst (h_event H h v e))) ->
  (forall h v n, good h -> good (fst (h_getEntity H h v n)) /\
     forall e b, snd (h_getEntity H h v n) = Answer (Some (Real e)) b -> nice E L e) ->
  (forall h, good h -> good (h_chunkEnter H h)) -> (forall h h', good h -> good h' -> good (h_chunkLeave H h h')) ->
  forall bytes, (forall c rest, suffix rest bytes -> calm E (decode E c rest)) ->
  forall n h, good h -> (forall c rest, suffix rest bytes -> (List.length (decode E c rest) + (L + 2) * 41 < n)%nat) ->
  fst (Parse E S H n h bytes) <> Oof.
Proof.
  intros E OK OV S H good L GE GG GN GL bytes BY n h Hh Hn.
  apply (Parse_runs E OK OV (calm E) (calm_suffix E)) with (good := good) (L := L) (D := False) (X := fun _ => True); auto.
  - intros r Hr. destruct (Hr [] _ eq_refl) as (X & _ & _). apply X; auto.
  - intros r Hr. destruct (Hr [] _ eq_refl) as (_ & _ & X). apply X; auto.
  - intros [].
  - left. intros l Hl. destruct (has_prefix _ _) eqn:Hp; auto. apply has_prefix_true in Hp as (r & Hr).
    destruct (Hl [] l eq_refl) as (_ & X & _). exfalso. apply (X r); auto.
Qed.
