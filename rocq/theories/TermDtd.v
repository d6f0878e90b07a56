(* Termination, document type declarations included: Term.v for inputs that may
   have one, provided its internal subset holds nothing on which the parser
   provably hangs. *)
From Verif Require Import Base Utf8 Utf8Proofs Encoding XmlSpec EscapeProofs Scan ScanProofs Parser Effects LexProofs Grammar Loose TextProofs Complete Local LooseLex LooseProofs Term.
From Coq Require Import ZifyBool.

(* ---- specification ---- *)
Definition quoting (c : Z) : Prop := c = 34 \/ c = 39.
(* the beginning of a declaration: literals, and characters other than quotes
   and '>' *)
Inductive open_decl : list Z -> Prop :=
| od_nil : open_decl []
| od_char c t : ~ quoting c -> c <> 62 -> open_decl t -> open_decl (c :: t)
| od_literal q a t : quoting q -> ~ In q a -> open_decl t -> open_decl (q :: a ++ q :: t).
(* the pieces an internal subset is made of; a comment may be cut off by an
   illegal character *)
Inductive item : list Z -> Prop :=
| it_blank c : blank c = true -> item [c]
| it_pe a : ~ In 59 a -> item (37 :: a ++ [59])
| it_pi a : ~ contains (s_ "?>") a -> item (s_ "<?" ++ a ++ s_ "?>")
| it_comment a : ~ contains (s_ "--") a -> item (s_ "<!--" ++ a ++ s_ "-->")
| it_cut a c : legals a -> legal c = false -> item (s_ "<!--" ++ a ++ [c])
| it_decl c a : In c [65; 69] -> open_decl a -> item (s_ "<!" ++ c :: a ++ [62]).
Definition items (t : list Z) : Prop := exists xs, Forall item xs /\ t = concat xs.
(* none of these begins here, nor does the subset end *)
Definition unknown (l : list Z) : Prop :=
  match l with [] => False | c :: _ => blank c = false /\ c <> 37 /\ c <> 93 end /\
  forall k, In k [s_ "<?"; s_ "<!-"; s_ "<!EL"; s_ "<!EN"; s_ "<!ATTLIST"] -> forall r, l <> k ++ r.
Definition word (n : list Z) : Prop := Forall (fun c => blank c = false /\ ~ quoting c /\ c <> 62 /\ c <> 91) n.
(* a literal with its character references replaced *)
Inductive replaced : list Z -> list Z -> Prop :=
| rp_nil : replaced [] []
| rp_char c t v : (c = 38 -> hd 0 t <> 35) -> replaced t v -> replaced (c :: t) (c :: v)
| rp_ref t x t' v : reference (35 :: t) = Some (x, t') -> replaced t' v -> replaced (38 :: 35 :: t) (x :: v).

Definition ends (q : Z) (r : list Z) : Prop := match r with [] => True | c :: _ => c = q \/ legal c = false end.

(* CDATA sections are terminated and colons all right *)
Definition mild (E : env) (l : list Z) : Prop := forall pre suf, l = pre ++ suf ->
  (forall r, suf = s_ "<![CDATA[" ++ r -> (exists a b, r = a ++ s_ "]]>" ++ b) \/ In 0 r) /\
  (forall r, suf = 58 :: r -> colon_ok E r).
(* at no place of the input there is *)
Definition subset_ok (E : env) (L : nat) (l : list Z) : Prop := forall pre suf, l = pre ++ suf ->
  (* an internal subset with something unknown in it; a '>' before the '['
     does not keep the parser from reading one *)
  (forall b n b' e its r, suf = s_ "<!DOCTYPE" ++ b ++ n ++ b' ++ e ++ 91 :: its ++ r ->
     blanks b -> word n -> blanks b' -> e = [] \/ e = [62] -> items its -> ~ unknown r) /\
  (* an attribute list declaration without attributes *)
  (forall b n b' r, suf = s_ "<!ATTLIST" ++ b ++ n ++ b' ++ 62 :: r -> blanks b -> word n -> ~ blanks b') /\
  (* a parenthesis in an attribute list declaration, outside of literals *)
  (forall a r, suf = s_ "<!ATTLIST" ++ a ++ 40 :: r -> ~ open_decl a) /\
  (* a literal which stands for a text that is not mild, or too long; an
     illegal character cuts a literal off *)
  (forall q lit r v, suf = q :: lit ++ r -> quoting q -> legals lit -> ~ In q lit -> ends q r -> replaced lit v -> mild E v /\ (List.length v <= L)%nat).

Lemma mild_suffix : forall E l l', mild E l -> suffix l' l -> mild E l'.
Proof. intros E l l' Hc (p & ->) pre suf ->. apply (Hc (p ++ pre)). rewrite app_assoc; auto. Qed.
Lemma subset_suffix : forall E L l l', subset_ok E L l -> suffix l' l -> subset_ok E L l'.
Proof. intros E L l l' Hc (p & ->) pre suf ->. apply (Hc (p ++ pre)). rewrite app_assoc; auto. Qed.

(* ---- moving within a declaration ---- *)
Definition moves (l l' : list Z) : Prop := exists a, l = a ++ l' /\ open_decl a.
Lemma open_app : forall a b, open_decl a -> open_decl b -> open_decl (a ++ b).
Proof.
  induction 1 as [|c t Hq Hg _ IH|q a t Hq Hn _ IH]; intros Hb; cbn [app]; [auto|constructor; auto|].
  rewrite <- app_assoc. cbn [app]. apply od_literal; auto.
Qed.
Lemma open_plain : forall a, Forall (fun c => ~ quoting c /\ c <> 62) a -> open_decl a.
Proof. induction 1 as [|c a [H1 H2] _ IH]; constructor; auto. Qed.
Lemma open_blanks : forall b, blanks b -> open_decl b.
Proof. intros b Hb. apply open_plain. eapply Forall_impl; [|exact Hb]. intros c Hc. cbv beta in Hc. unfold blank, quoting in *. lia. Qed.
Lemma open_word : forall n, word n -> open_decl n.
Proof. intros n Hn. apply open_plain. eapply Forall_impl; [|exact Hn]. intros c Hc. cbv beta in Hc. tauto. Qed.
Lemma moves_refl : forall l, moves l l. Proof. intros l. exists []. split; [reflexivity|constructor]. Qed.
Lemma moves_trans : forall a b c, moves a b -> moves b c -> moves a c.
Proof. intros a b c (x & -> & Hx) (y & -> & Hy). exists (x ++ y). split; [apply app_assoc|apply open_app; auto]. Qed.
Lemma moves_by : forall a l, open_decl a -> moves (a ++ l) l. Proof. intros a l Ha. exists a. auto. Qed.
Lemma moves_char : forall c l, ~ quoting c -> c <> 62 -> moves (c :: l) l.
Proof. intros c l H1 H2. exists [c]. split; [reflexivity|]. constructor; auto. constructor. Qed.

Section S.
Variable E : env.
Hypothesis OK : env_ok E.
Hypothesis NC : forall c, isLetter E c || isDigit E c = true -> xml_char c = true.
Hypothesis OV : forall n l, over E n l = [].

Definition pmv {A} (p : P A) : Prop := forall l a l', p l = (Ret a, l') -> moves l l'.
Lemma pmv_bind : forall A B (p : P A) (f : A -> P B), pmv p -> (forall a, pmv (f a)) -> pmv (pbind p f).
Proof. intros A B p f Hp Hf l b l' Hb. apply pbind_inv in Hb as (a & l1 & H1 & H2). eapply moves_trans; [eapply Hp; eauto|eapply Hf; eauto]. Qed.
Lemma pmv_ret : forall A (a : A), pmv (pret a). Proof. intros A a l x l' Hx. inversion Hx. apply moves_refl. Qed.
Lemma pmv_fail : forall A e, pmv (@pfail A e). Proof. intros A e l x l' Hx. discriminate. Qed.
Lemma pmv_failw : forall A e, pmv (@pfailw A e). Proof. intros A e l x l' Hx. discriminate. Qed.
Lemma pmv_lift : forall A (o : outcome gerr A), pmv (plift o). Proof. intros A o l x l' Hx. inversion Hx. apply moves_refl. Qed.
Lemma pmv_wrap : forall A (p : P A), pmv p -> pmv (pwrap p). Proof. intros A p Hp l a l' Ha. apply pwrap_inv in Ha. eapply Hp; eauto. Qed.
Lemma pmv_else : forall A (p : P A) e, pmv p -> pmv (por_else p e). Proof. intros A p e Hp l a l' Ha. apply por_else_inv in Ha. eapply Hp; eauto. Qed.
Lemma skip_form : forall l b l', skipBlanks l = (Ret b, l') -> exists w, l = w ++ l' /\ blanks w.
Proof. intros l b l' Hs. inversion Hs. exists (takeW isBlankCh l). split; [symmetry; apply takeW_dropW|apply blanks_is, takeW_all]. Qed.
Lemma pmv_skip : pmv skipBlanks.
Proof. intros l b l' Hs. apply skip_form in Hs as (w & -> & Hw). apply moves_by, open_blanks, Hw. Qed.
Lemma pmv_consume : forall p, Forall (fun c => ~ quoting c /\ c <> 62) p -> pmv (pconsume p).
Proof. intros p Hp l b l' Hc. apply pconsume_inv in Hc as [[_ ->]|(_ & -> & _)]; [apply moves_by, open_plain, Hp|apply moves_refl]. Qed.
Lemma pmv_look : forall A (g : list Z -> A), pmv (fun l => (Ret (g l), l)). Proof. intros A g l x l' Hx. inversion Hx. apply moves_refl. Qed.

Lemma name_char_not : forall c, isLetter E c || isDigit E c || (c =? 95) || (c =? 45) || (c =? 46) || (c =? 58) = true ->
  blank c = false /\ ~ quoting c /\ c <> 62 /\ c <> 91 /\ c <> 59 /\ c <> 63.
Proof.
  intros c Hc. unfold blank, quoting.
  assert (Hd : forall x, 0 <= x < 128 -> c = x -> isAZ x = false -> isD x = false -> x <> 95 -> x <> 45 -> x <> 46 -> x <> 58 -> False).
  { intros x Hx -> H1 H2 H3 H4 H5 H6. rewrite (ok_letter E OK), (ok_digit E OK) in Hc by auto. lia. }
  assert (N : forall x, In x [32; 13; 10; 9; 34; 39; 62; 91; 59; 63] -> c <> x).
  { intros x Hx He. apply (Hd x); auto; cbn in Hx; repeat (destruct Hx as [<-|Hx]; [first [lia|reflexivity]|]); destruct Hx. }
  assert (c <> 32 /\ c <> 13 /\ c <> 10 /\ c <> 9 /\ c <> 34 /\ c <> 39 /\ c <> 62 /\ c <> 91 /\ c <> 59 /\ c <> 63)
    by (repeat split; apply N; cbn; tauto).
  lia.
Qed.
Lemma name_is_word : forall l v l', parseName E l = (Ret v, l') ->
  exists n, l = n ++ l' /\ word n /\ n <> [] /\ ~ In 59 n /\ ~ In 63 n.
Proof.
  intros l v l' Hp. apply (name_form E OK NC OV) in Hp as (n & z & -> & _ & Hz & _ & _ & Hn). destruct n as [|c r]; [destruct Hn|].
  destruct Hn as [H1 H2].
  assert (A : Forall (fun x => blank x = false /\ ~ quoting x /\ x <> 62 /\ x <> 91 /\ x <> 59 /\ x <> 63) ((c :: r) ++ z)).
  { apply Forall_app. split.
    - constructor; [apply name_char_not; unfold isNameStartChar in H1; lia|]. eapply Forall_impl; [|exact H2]. intros x Hx. cbv beta in Hx.
      apply name_char_not. rewrite nameRest_class in Hx by auto. lia.
    - destruct Hz as [->| ->]; constructor; [|constructor]. unfold blank, quoting. lia. }
  rewrite Forall_forall in A. exists ((c :: r) ++ z). split; [rewrite <- app_assoc; reflexivity|]. split.
  - apply Forall_forall. intros x Hx. specialize (A x Hx). tauto.
  - split; [discriminate|]. split; intros Hi; apply A in Hi; tauto.
Qed.
Lemma pmv_name : pmv (parseName E).
Proof. intros l v l' Hp. apply name_is_word in Hp as (n & -> & Hn & _). apply moves_by, open_word, Hn. Qed.
(* Advance(1) over a character that was looked at *)
Lemma adv_over : forall l c, peek E l = c -> 0 < c < 60000 -> ~ quoting c -> c <> 62 -> moves l (advance E 1 l).
Proof. intros l c Hp H0 H1 H2. apply (peek_is E OK NC) in Hp as (t & ->); [|auto]. rewrite advance_1. apply moves_char; auto. Qed.
Lemma adv_end : moves [] (advance E 1 []).
Proof. unfold advance. cbn [List.length Nat.leb]. rewrite OV. apply moves_refl. Qed.
(* the tests on the next character *)
Lemma pmv_peek : forall A (f : Z -> P A), (forall l a l', f (peek E l) l = (Ret a, l') -> moves l l') -> pmv (pbind (ppeek E) f).
Proof. intros A f Hf l a l' Ha. apply (Hf l a l'). exact Ha. Qed.
Lemma pmv_at : forall A (p : P A) l a l', pmv p -> p l = (Ret a, l') -> moves l l'. Proof. intros A p l a l' Hp Ha. eapply Hp; eauto. Qed.
Lemma pmv_adv : forall A (p : P A) c l a l', pbind (padvance E 1) (fun _ => p) l = (Ret a, l') -> peek E l = c -> 0 < c < 60000 -> ~ quoting c -> c <> 62 ->
  pmv p -> moves l l'.
Proof.
  intros A p c l a l' Ha Hp H0 H1 H2 Hm. apply pbind_inv in Ha as (u & l1 & U & Ha). inversion U; subst l1.
  eapply moves_trans; [eapply adv_over; eauto|eapply Hm; eauto].
Qed.
Ltac notq := first [lia | unfold quoting; lia].
Ltac qadv H K := eapply pmv_adv; [exact H|exact K|notq|notq|notq|].

Lemma pmv_occ : forall e, pmv (occurrence E e).
Proof.
  intros e. unfold occurrence. apply pmv_peek. intros l a l' Ha.
  destruct (Z.eqb_spec (peek E l) 63) as [K|]; [qadv Ha K; apply pmv_ret|].
  destruct (Z.eqb_spec (peek E l) 42) as [K|]; [qadv Ha K; apply pmv_ret|].
  destruct (Z.eqb_spec (peek E l) 43) as [K|]; [qadv Ha K; apply pmv_ret|].
  inversion Ha. apply moves_refl.
Qed.
Lemma pmv_leaf : pmv (nameLeaf E).
Proof. unfold nameLeaf. apply pmv_bind; [apply pmv_wrap, pmv_name|]. intros nm. apply pmv_bind; [apply pmv_wrap, pmv_lift|]. intros e. apply pmv_occ. Qed.
Lemma close_moves : forall r l a l', (l = [] \/ peek E l = 41) -> closeGroup E r l = (Ret a, l') -> moves l l'.
Proof.
  intros r l a l' Hc Ha. unfold closeGroup in Ha. apply pbind_inv in Ha as (u & l1 & U & Ha). inversion U; subst. clear U.
  assert (Hm : moves l (advance E 1 l)). { destruct Hc as [->|Hc]; [apply adv_end|]. eapply adv_over; [exact Hc|notq|notq|notq]. }
  eapply moves_trans; [exact Hm|]. clear Hm Hc. revert Ha. generalize (advance E 1 l). clear l. intros l Ha.
  refine ((_ : pmv _) l a l' Ha). apply pmv_peek. clear l a l' Ha. intros l a l' Ha.
  destruct (Z.eqb_spec (peek E l) 63) as [K|]; [qadv Ha K; apply pmv_ret|].
  destruct (peek E l =? 42); [inversion Ha; apply moves_refl|].
  destruct (peek E l =? 43); [destruct r; inversion Ha; apply moves_refl|]. inversion Ha; apply moves_refl.
Qed.
Lemma pmv_children : forall n, (forall d, pmv (childrenDecl E n d)) /\ (forall d s c x, pmv (childrenLoop E n d s c x)).
Proof.
  induction n as [|n [IH1 IH2]]; (split; [intros d|intros d s ch x]); [intros l a l' Ha; discriminate|intros l a l' Ha; discriminate| |].
  - cbn [childrenDecl]. destruct (128 <? d); [apply pmv_fail|]. apply pmv_bind; [apply pmv_skip|]. intros _. apply pmv_peek. intros l a l' Ha.
    apply pbind_inv in Ha as (ch & l1 & H1 & Ha). eapply moves_trans; [|refine ((_ : pmv _) l1 a l' Ha); apply pmv_bind; [apply pmv_skip|intros _; apply IH2]].
    destruct (Z.eqb_spec (peek E l) 40) as [K|].
    + qadv H1 K. apply pmv_bind; [apply pmv_skip|]. intros _. apply pmv_bind; [apply pmv_wrap, IH1|]. intros _. apply pmv_bind; [apply pmv_skip|]. intros _. apply pmv_ret.
    + refine ((_ : pmv _) l ch l1 H1). apply pmv_bind; [apply pmv_leaf|]. intros e. apply pmv_ret.
  - cbn [childrenLoop]. intros l a l' Ha. apply pbind_inv in Ha as (dn & l1 & H1 & Ha). inversion H1; subst dn l1. clear H1.
    destruct (done l) eqn:Hd. { destruct l; [|discriminate]. eapply close_moves; [left; reflexivity|exact Ha]. }
    apply pbind_inv in Ha as (c & l1 & H1 & Ha). inversion H1; subst c l1. clear H1.
    destruct (Z.eqb_spec (peek E l) 41) as [K|]; [eapply close_moves; eauto|].
    destruct ((peek E l =? 44) || (peek E l =? 124)) eqn:Hs; cbn [negb] in Ha; [|discriminate].
    destruct (negb (s =? 0) && negb (s =? peek E l)); [discriminate|].
    assert (Hk : exists k, peek E l = k /\ 0 < k < 60000 /\ ~ quoting k /\ k <> 62) by (exists (peek E l); unfold quoting; lia).
    destruct Hk as (k & K & K1 & K2 & K3). eapply pmv_adv; [exact Ha|exact K|auto|auto|auto|]. cbv zeta. apply pmv_bind; [apply pmv_skip|]. intros _.
    clear Ha Hd n0 Hs K. generalize (peek E l). clear l a l'. intros cc. apply pmv_peek. intros l a l' Ha.
    apply pbind_inv in Ha as (ch' & l1 & H1 & Ha). eapply moves_trans; [|refine ((_ : pmv _) l1 a l' Ha); apply pmv_bind; [apply pmv_skip|intros _; apply IH2]].
    destruct (Z.eqb_spec (peek E l) 40) as [K|].
    + qadv H1 K. apply pmv_bind; [apply pmv_skip|]. intros _. apply pmv_bind; [apply pmv_wrap, IH1|]. intros r. apply pmv_bind; [apply pmv_skip|]. intros _. apply pmv_ret.
    + refine ((_ : pmv _) l ch' l1 H1). apply pmv_bind; [apply pmv_leaf|]. intros e. apply pmv_ret.
Qed.
Lemma pmv_mixedLoop : forall n r e, pmv (mixedLoop E n r e).
Proof.
  induction n as [|n IH]; intros r e; [intros l a l' Ha; discriminate|]. cbn [mixedLoop]. apply pmv_peek. intros l a l' Ha.
  destruct (Z.eqb_spec (peek E l) 124) as [K|]; cbn [negb] in Ha; [|inversion Ha; apply moves_refl]. qadv Ha K. destruct e.
  - apply pmv_bind; [apply pmv_skip|]. intros _. apply pmv_bind; [apply pmv_wrap, pmv_name|]. intros e. apply pmv_bind; [apply pmv_skip|]. intros _. apply IH.
  - apply pmv_bind; [apply pmv_wrap, pmv_lift|]. intros _ l1 x l2 Hx. discriminate.
Qed.
Ltac plains := apply Forall_forall; let x := fresh in let Hx := fresh in intros x Hx; vm_compute in Hx; unfold quoting; repeat (destruct Hx as [<-|Hx]; [lia|]); destruct Hx.
Lemma plain_pcdata : Forall (fun c => ~ quoting c /\ c <> 62) (s_ "#PCDATA").
Proof. plains. Qed.
Lemma pmv_mixed : forall n, pmv (mixedDecl E n).
Proof.
  intros n. unfold mixedDecl. apply pmv_bind; [apply pmv_consume, plain_pcdata|]. intros ok. destruct (negb ok); [apply pmv_failw|]. cbv zeta.
  apply pmv_peek. intros l a l' Ha. destruct (Z.eqb_spec (peek E l) 41) as [K|].
  - qadv Ha K. apply pmv_peek. clear l a l' Ha K. intros l a l' Ha. destruct (Z.eqb_spec (peek E l) 42) as [K|]; [qadv Ha K; apply pmv_ret|inversion Ha; apply moves_refl].
  - refine ((_ : pmv _) l a l' Ha). apply pmv_bind; [apply pmv_mixedLoop|]. intros [r e]. clear l a l' Ha n0. intros l a l' Ha.
    apply pbind_inv in Ha as (fi & l1 & H1 & Ha). inversion H1; subst. clear H1.
    destruct ((peekn E 1 l1 =? 41) && (peekn E 2 l1 =? 42)) eqn:K; [|inversion Ha; apply moves_refl].
    apply andb_true_iff in K as [K1 K2]. apply Z.eqb_eq in K1, K2. unfold peekn in *. cbn [pred] in *.
    destruct l1 as [|x [|y t]]; cbn [nth] in *; [destruct (ok_eofr E OK) as [Q|Q]; rewrite Q in *; discriminate|destruct (ok_eofr E OK) as [Q|Q]; rewrite Q in *; discriminate|]. subst x y.
    apply pbind_inv in Ha as (u & l2 & H2 & Ha). assert (Hl2 : l2 = t) by (inversion H2; subst; reflexivity). subst l2. clear H2.
    apply moves_trans with t; [apply moves_trans with (42 :: t); apply moves_char; unfold quoting; lia|].
    destruct e; [inversion Ha; apply moves_refl|]. refine ((_ : pmv _) t a l' Ha). apply pmv_bind; [apply pmv_wrap, pmv_lift|]. intros c2. apply pmv_ret.
Qed.
Lemma pmv_contentDecl : forall n, pmv (elementContentDecl E n).
Proof.
  intros n. unfold elementContentDecl. apply pmv_peek. intros l a l' Ha. destruct (Z.eqb_spec (peek E l) 40) as [K|]; cbn [negb] in Ha; [|discriminate].
  qadv Ha K. apply pmv_bind; [apply pmv_skip|]. intros _. apply pmv_bind; [apply pmv_look|]. intros [|];
    (apply pmv_bind; [apply pmv_wrap; first [apply pmv_mixed | apply pmv_children]|]); intros ec; (apply pmv_bind; [apply pmv_skip|]); intros _; apply pmv_ret.
Qed.
(* an accepted element type declaration *)
Lemma element_item : forall n l a l', scanElementDecl E n l = (Ret a, l') -> exists t, l = s_ "<!" ++ 69 :: t ++ 62 :: l' /\ open_decl t.
Proof.
  intros n l a l' Ha. unfold scanElementDecl in Ha. apply pbind_inv in Ha as (ok & l1 & H1 & Ha). apply pconsume_inv in H1 as [[-> ->]|(-> & _)]; [|discriminate].
  cbn [negb] in Ha. apply pbind_inv in Ha as (c & l2 & H2 & Ha). inversion H2; subst c l2. clear H2. destruct (negb (isBlankCh _)); [discriminate|].
  apply pbind_inv in Ha as (b & l2 & H2 & Ha). apply pmv_skip in H2. apply pbind_inv in Ha as (nm & l3 & H3 & Ha). apply pwrap_inv, pmv_name in H3.
  apply pbind_inv in Ha as (c & l4 & H4 & Ha). inversion H4; subst c l4. clear H4. destruct (negb (isBlankCh _)); [discriminate|].
  apply pbind_inv in Ha as (b2 & l4 & H4 & Ha). apply pmv_skip in H4. apply pbind_inv in Ha as (r & l5 & H5 & Ha).
  assert (M5 : moves l4 l5).
  { refine ((_ : pmv _) l4 r l5 H5). apply pmv_bind; [apply pmv_consume; plains|]. intros [|]; [apply pmv_ret|].
    apply pmv_bind; [apply pmv_consume; plains|]. intros [|]; [apply pmv_ret|]. apply pmv_peek. clear - OK NC OV. intros l a l' Ha.
    destruct (peek E l =? 40); [refine ((_ : pmv _) l a l' Ha); apply pmv_wrap, pmv_contentDecl|inversion Ha; apply moves_refl]. }
  clear H5. apply pbind_inv in Ha as (b3 & l6 & H6 & Ha). apply pmv_skip in H6.
  apply pbind_inv in Ha as (c & l7 & H7 & Ha). inversion H7; subst c l7. clear H7. destruct (Z.eqb_spec (peek E l6) 62) as [K|]; [|discriminate]. cbn [negb] in Ha.
  apply (peek_is E OK NC) in K as (t & ->); [|lia]. apply pbind_inv in Ha as (u & l7 & H7 & Ha). inversion H7; subst l7. clear H7. inversion Ha; subst l'. clear Ha.
  assert (M : moves l1 (62 :: t)) by (eapply moves_trans; [exact H2|]; eapply moves_trans; [exact H3|]; eapply moves_trans; [exact H4|]; eapply moves_trans; [exact M5|exact H6]).
  destruct M as (w & -> & Hw). exists (s_ "LEMENT" ++ w). split; [cbn; rewrite <- ?app_assoc; reflexivity|]. apply open_app; [apply open_plain; plains|auto].
Qed.

(* ---- content models are read in finite time ---- *)
Lemma pno_name : pno (parseName E).
Proof. intros l. unfold parseName, scanName. destruct ((_ =? 32) || _ || _ || _); [discriminate|]. cbv zeta. destruct (MaxNameLength <? _); discriminate. Qed.
Lemma pno_lift : forall A (o : outcome gerr A), o <> Oof -> pno (plift o). Proof. intros A o Ho l. exact Ho. Qed.
Lemma newEC_runs : forall n t, newElementContent n t <> Oof.
Proof.
  intros n t. unfold newElementContent. destruct (_ =? _); [destruct n; [discriminate|]; destruct (prefix_local _); discriminate|].
  destruct (_ || _); [destruct n; discriminate|discriminate].
Qed.
Lemma pno_leaf : pno (nameLeaf E).
Proof.
  unfold nameLeaf. apply pno_bind; [apply pno_wrap, pno_name|]. intros nm. apply pno_bind; [apply pno_wrap, pno_lift, newEC_runs|]. intros e.
  intros l. unfold occurrence, pbind, ppeek, padvance, pret. repeat (destruct (_ =? _); [discriminate|]). discriminate.
Qed.
Lemma pno_close : forall r, pno (closeGroup E r).
Proof. intros r l. unfold closeGroup, pbind, ppeek, padvance, pret, ppan. destruct (_ =? _); [discriminate|]. destruct (_ =? _); [discriminate|]. destruct (_ =? _); [destruct r; discriminate|discriminate]. Qed.
Lemma pno_skip : pno skipBlanks. Proof. intros l. discriminate. Qed.
(* runs out on no input of at most [k] characters *)
Definition upto {A} (k : nat) (p : P A) : Prop := forall l, (List.length l <= k)%nat -> fst (p l) <> Oof.
Lemma upto_no : forall A k (p : P A), pno p -> upto k p. Proof. intros A k p Hp l _. apply Hp. Qed.
Lemma upto_bind : forall A B k (p : P A) (f : A -> P B), upto k p -> psuf p -> (forall a, upto k (f a)) -> upto k (pbind p f).
Proof.
  intros A B k p f Hp Hs Hf l Hl. specialize (Hp l Hl). specialize (Hs l). unfold pbind. destruct (p l) as [[a|e| |] l']; cbn [fst snd] in *; try discriminate; [|congruence].
  apply Hf. apply suffix_length in Hs. lia.
Qed.
Lemma upto_wrap : forall A k (p : P A), upto k p -> upto k (pwrap p).
Proof. intros A k p Hp l Hl. specialize (Hp l Hl). unfold pwrap. destruct (p l) as [[a|e| |] l']; cbn in *; congruence. Qed.
Lemma upto_less : forall A k k' (p : P A), upto k p -> (k' <= k)%nat -> upto k' p. Proof. intros A k k' p Hp Hk l Hl. apply Hp. lia. Qed.
Lemma upto_peek : forall A k (f : Z -> P A), (forall l, (List.length l <= k)%nat -> fst (f (peek E l) l) <> Oof) -> upto k (pbind (ppeek E) f).
Proof. intros A k f Hf l Hl. apply Hf; auto. Qed.
(* p consumes something, so that the rest may use less *)
Lemma upto_eat : forall A B k (p : P A) (f : A -> P B), pno p -> (forall l a l', p l = (Ret a, l') -> (List.length l' < List.length l)%nat) ->
  (forall a k', k = Datatypes.S k' -> upto k' (f a)) -> upto k (pbind p f).
Proof.
  intros A B k p f Hp Hs Hf l Hl. specialize (Hp l). specialize (Hs l). unfold pbind. destruct (p l) as [[a|e| |] l']; cbn [fst snd] in *; try discriminate; [|congruence].
  specialize (Hs a l' eq_refl). destruct k as [|k']; [lia|]. apply (Hf a k' eq_refl). lia.
Qed.
Lemma adv_eats : forall A k (p : P A) c l, peek E l = c -> 0 < c < 60000 -> (List.length l <= k)%nat -> (forall k', k = Datatypes.S k' -> upto k' p) ->
  fst (pbind (padvance E 1) (fun _ => p) l) <> Oof.
Proof.
  intros A k p c l Hp Hc Hl Hk. apply (peek_is E OK NC) in Hp as (t & ->); [|auto]. unfold pbind, padvance. rewrite advance_1. cbn [List.length] in Hl.
  destruct k as [|k']; [lia|]. apply (Hk k' eq_refl). lia.
Qed.
Lemma name_eats : forall l v l', parseName E l = (Ret v, l') -> (List.length l' < List.length l)%nat.
Proof. intros l v l' Hp. apply name_is_word in Hp as (n & -> & _ & Hn & _). rewrite app_length. destruct n; [congruence|cbn; lia]. Qed.
Lemma leaf_eats : forall l v l', nameLeaf E l = (Ret v, l') -> (List.length l' < List.length l)%nat.
Proof.
  intros l v l' Hp. unfold nameLeaf in Hp. apply pbind_inv in Hp as (nm & l1 & H1 & Hp). apply pwrap_inv, name_eats in H1.
  apply pbind_inv in Hp as (e & l2 & H2 & Hp). apply pwrap_inv in H2. inversion H2; subst l2. pose proof (psuf_occ E OK e l1) as Hs. rewrite Hp in Hs. apply suffix_length in Hs. cbn [snd] in Hs. lia.
Qed.
Lemma pbind_assoc : forall A B C (p : P A) (f : A -> P B) (g : B -> P C) l, pbind (pbind p f) g l = pbind p (fun a => pbind (f a) g) l.
Proof. intros. unfold pbind. destruct (p l) as [[a|e| |] l']; reflexivity. Qed.
Lemma upto_assoc : forall A B C k (p : P A) (f : A -> P B) (g : B -> P C), upto k (pbind p (fun a => pbind (f a) g)) -> upto k (pbind (pbind p f) g).
Proof. intros A B C k p f g Hp l Hl. rewrite pbind_assoc. apply Hp, Hl. Qed.
Lemma children_runs : forall n, (forall d, upto n (childrenDecl E (Datatypes.S n) d)) /\ (forall d s c x, upto n (childrenLoop E (Datatypes.S n) d s c x)).
Proof.
  induction n as [n IH] using lt_wf_ind.
  assert (ID : forall k' d, n = Datatypes.S k' -> upto k' (childrenDecl E n d)) by (intros k' d ->; apply IH; lia).
  assert (IL : forall k' d s c x, n = Datatypes.S k' -> upto k' (childrenLoop E n d s c x)) by (intros k' d s c x ->; apply IH; lia).
  assert (L0 : forall k' d s c x, n = Datatypes.S k' -> upto k' (pbind skipBlanks (fun _ => childrenLoop E n d s c x))).
  { intros k' d s c x Hk. apply upto_bind; [apply upto_no, pno_skip|apply psuf_skip|]. intros _. apply IL; auto. }
  split; [intros d|intros d s ch x].
  - cbn [childrenDecl]. destruct (128 <? d); [apply upto_no, pno_fail|]. apply upto_bind; [apply upto_no, pno_skip|apply psuf_skip|]. intros _.
    apply upto_peek. intros l Hl.
    destruct (Z.eqb_spec (peek E l) 40) as [K|].
    + rewrite pbind_assoc. eapply adv_eats; [exact K|lia|exact Hl|]. intros k' Hk.
      apply upto_assoc, upto_bind; [apply upto_no, pno_skip|apply psuf_skip|]. intros _.
      apply upto_assoc, upto_bind; [apply upto_wrap, ID, Hk|apply psuf_wrap, psuf_childrenDecl; auto|]. intros _.
      apply upto_assoc, upto_bind; [apply upto_no, pno_skip|apply psuf_skip|]. intros _. apply L0, Hk.
    + rewrite pbind_assoc. refine (upto_eat _ _ n _ _ pno_leaf leaf_eats _ l Hl). intros e k' Hk. apply L0, Hk.
  - cbn [childrenLoop]. apply upto_bind; [intros l _; discriminate|apply psuf_look|]. intros [|]; [apply upto_no, pno_close|].
    apply upto_peek. intros l Hl. destruct (peek E l =? 41); [apply pno_close|]. destruct ((peek E l =? 44) || (peek E l =? 124)) eqn:Hs; cbn [negb]; [|discriminate].
    destruct (negb (s =? 0) && negb (s =? peek E l)); [discriminate|].
    eapply adv_eats; [reflexivity|lia|exact Hl|]. intros k' Hk. cbv zeta. apply upto_bind; [apply upto_no, pno_skip|apply psuf_skip|]. intros _.
    generalize (peek E l). clear l Hl Hs. intros cc. apply upto_peek. intros l Hl. destruct (Z.eqb_spec (peek E l) 40) as [K|].
    + rewrite pbind_assoc. eapply adv_eats; [exact K|lia|exact Hl|]. intros k2 Hk2.
      assert (U : forall A (p : P A), upto k' p -> upto k2 p) by (intros A p Hp; eapply upto_less; [exact Hp|lia]).
      apply U, upto_assoc, upto_bind; [apply upto_no, pno_skip|apply psuf_skip|]. intros _.
      apply upto_assoc, upto_bind; [apply upto_wrap, ID, Hk|apply psuf_wrap, psuf_childrenDecl; auto|]. intros r.
      apply upto_assoc, upto_bind; [apply upto_no, pno_skip|apply psuf_skip|]. intros _. apply L0, Hk.
    + rewrite pbind_assoc. refine (upto_bind _ _ k' _ _ (upto_no _ _ _ pno_leaf) (psuf_leaf E OK) _ l Hl). intros e. apply L0, Hk.
Qed.
Lemma mixedLoop_runs : forall n r e, upto n (mixedLoop E (Datatypes.S n) r e).
Proof.
  induction n as [n IH] using lt_wf_ind. intros r e. cbn [mixedLoop]. apply upto_peek. intros l Hl.
  destruct (Z.eqb_spec (peek E l) 124) as [K|]; cbn [negb]; [|discriminate].
  eapply adv_eats; [exact K|lia|exact Hl|]. intros k' ->. destruct e.
  - apply upto_bind; [apply upto_no, pno_skip|apply psuf_skip|]. intros _. apply upto_bind; [apply upto_no, pno_wrap, pno_name|apply psuf_wrap, psuf_name; auto|]. intros e.
    apply upto_bind; [apply upto_no, pno_skip|apply psuf_skip|]. intros _. apply IH. lia.
  - intros l' _. unfold pbind, pwrap, plift. cbn. discriminate.
Qed.
Lemma mixed_runs : forall n, upto n (mixedDecl E (Datatypes.S n)).
Proof.
  intros n. unfold mixedDecl. apply upto_bind; [apply upto_no, pno_consume|apply psuf_consume; auto|]. intros ok. destruct (negb ok); [apply upto_no, pno_failw|]. cbv zeta.
  apply upto_peek. intros l Hl. destruct (peek E l =? 41).
  - unfold pbind, padvance, ppeek, pret. destruct (_ =? _); discriminate.
  - refine (upto_bind _ _ n _ _ (mixedLoop_runs n _ _) (psuf_mixedloop E OK _ _ _) _ l Hl). intros [r e]. apply upto_bind; [intros ? _; discriminate|apply psuf_look|].
    intros [|]; [|intros ? _; discriminate]. apply upto_bind; [intros ? _; discriminate|apply psuf_advance; auto|]. intros _. destruct e; [intros ? _; discriminate|].
    apply upto_bind; [apply upto_wrap, upto_no, pno_lift, newEC_runs|apply psuf_wrap, psuf_lift|]. intros c. intros ? _; discriminate.
Qed.
Lemma contentDecl_runs : forall n, upto n (elementContentDecl E (Datatypes.S n)).
Proof.
  intros n. unfold elementContentDecl. apply upto_peek. intros l Hl. destruct (negb _); [discriminate|].
  refine (upto_bind _ _ n _ _ (upto_no _ _ _ _) (psuf_advance E OK 1) _ l Hl); [intros ?; discriminate|]. intros _.
  apply upto_bind; [apply upto_no, pno_skip|apply psuf_skip|]. intros _. apply upto_bind; [intros ? _; discriminate|apply psuf_has|]. intros [|].
  - apply upto_bind; [apply upto_wrap, mixed_runs|apply psuf_wrap, psuf_mixed; auto|]. intros ec. apply upto_bind; [apply upto_no, pno_skip|apply psuf_skip|]. intros _ ? _; discriminate.
  - apply upto_bind; [apply upto_wrap, children_runs|apply psuf_wrap, psuf_childrenDecl; auto|]. intros ec. apply upto_bind; [apply upto_no, pno_skip|apply psuf_skip|]. intros _ ? _; discriminate.
Qed.
Lemma elementDecl_runs : forall n, upto n (scanElementDecl E n).
Proof.
  intros n l Hl. unfold scanElementDecl. unfold pbind at 1. destruct (pconsume (s_ "<!ELEMENT") l) as [o l1] eqn:Hc.
  assert (Ho : exists ok, o = Ret ok) by (unfold pconsume in Hc; destruct (has_prefix _ _); inversion Hc; eauto). destruct Ho as (ok & ->).
  apply pconsume_inv in Hc as [[-> ->]|(-> & -> & _)]; [|discriminate]. cbn [negb]. rewrite app_length in Hl. change (List.length (s_ "<!ELEMENT")) with 9%nat in Hl.
  destruct n as [|n]; [lia|]. assert (Hl1 : (List.length l1 <= n)%nat) by lia. clear Hl. revert l1 Hl1.
  match goal with |- forall l1, _ -> fst (?p l1) <> Oof => change (upto n p) end.
  apply upto_peek. intros l Hl. destruct (negb _); [discriminate|].
  refine (upto_bind _ _ n _ _ (upto_no _ _ _ pno_skip) psuf_skip _ l Hl). intros _.
  apply upto_bind; [apply upto_no, pno_wrap, pno_name|apply psuf_wrap, psuf_name; auto|]. intros nm. apply upto_peek. clear l Hl. intros l Hl. destruct (negb _); [discriminate|].
  refine (upto_bind _ _ n _ _ (upto_no _ _ _ pno_skip) psuf_skip _ l Hl). intros _.
  apply upto_bind.
  - apply upto_bind; [apply upto_no, pno_consume|apply psuf_consume; auto|]. intros [|]; [intros ? _; discriminate|].
    apply upto_bind; [apply upto_no, pno_consume|apply psuf_consume; auto|]. intros [|]; [intros ? _; discriminate|]. apply upto_peek. clear l Hl. intros l Hl.
    destruct (_ =? _); [|discriminate]. refine (upto_wrap _ n _ (contentDecl_runs n) l Hl).
  - pauto. apply psuf_content; auto.
  - intros r. apply upto_bind; [apply upto_no, pno_skip|apply psuf_skip|]. intros _. apply upto_peek. intros l' _. destruct (negb _); discriminate.
Qed.

(* ---- attribute types ---- *)
(* without a parenthesis ahead *)
Definition no_paren (l : list Z) : Prop := forall a r, l = a ++ 40 :: r -> ~ open_decl a.
Lemma no_paren_moves : forall l l', no_paren l -> moves l l' -> no_paren l'.
Proof. intros l l' Hn (a & -> & Ha) b r ->. intros Hb. apply (Hn (a ++ b) r); [apply app_assoc|apply open_app; auto]. Qed.
Lemma no_paren_peek : forall l, no_paren l -> peek E l <> 40.
Proof. intros l Hn Hp. apply (peek_is E OK NC) in Hp as (t & ->); [|lia]. apply (Hn [] t); [reflexivity|constructor]. Qed.
Lemma tokenList_runs : forall n p a b l, no_paren l -> fst (tokenList E n p a b l) <> Oof.
Proof. intros n p a b l Hn. apply no_paren_peek in Hn. unfold tokenList, pbind, ppeek. destruct (Z.eqb_spec (peek E l) 40); [contradiction|discriminate]. Qed.
Lemma tokenList_none : forall n p a b l x l', no_paren l -> tokenList E n p a b l <> (Ret x, l').
Proof. intros n p a b l x l' Hn. apply no_paren_peek in Hn. unfold tokenList, pbind, ppeek. destruct (Z.eqb_spec (peek E l) 40); [contradiction|discriminate]. Qed.
Lemma enumerated_not : forall n l, no_paren l -> exists e l', parseEnumeratedType E n l = (Fail e, l').
Proof.
  intros n l Hn. unfold parseEnumeratedType, parseNotationType, parseEnumerationType, tokenList.
  destruct (pconsume (s_ "NOTATION") l) as [o l1] eqn:Hc. unfold pbind at 1. rewrite Hc.
  assert (Ho : exists ok, o = Ret ok) by (unfold pconsume in Hc; destruct (has_prefix _ _); inversion Hc; eauto). destruct Ho as ([|] & ->).
  - unfold pbind at 1. cbn [ppeek]. destruct (negb _); [eexists; eexists; reflexivity|]. unfold pbind at 1. destruct (skipBlanks l1) as [o2 l2] eqn:Hs.
    assert (M : moves l l2).
    { apply moves_trans with l1; [eapply pmv_consume; [|exact Hc]; plains|]. inversion Hs; subst. eapply pmv_skip. exact Hs. }
    assert (Hk : o2 = Ret (negb (Nat.eqb (List.length (takeW isBlankCh l1)) 0))) by (inversion Hs; reflexivity). rewrite Hk.
    pose proof (no_paren_peek _ (no_paren_moves _ _ Hn M)) as Hp. unfold pbind, ppeek. destruct (Z.eqb_spec (peek E l2) 40); [contradiction|]. eexists; eexists; reflexivity.
  - assert (M : moves l l1) by (eapply pmv_consume; [|exact Hc]; plains).
    pose proof (no_paren_peek _ (no_paren_moves _ _ Hn M)) as Hp. unfold pbind, ppeek. destruct (Z.eqb_spec (peek E l1) 40); [contradiction|]. eexists; eexists; reflexivity.
Qed.
Definition plain (k : str) : Prop := Forall (fun c => ~ quoting c /\ c <> 62) k.
Lemma keywords_run : forall ks n l, Forall (fun kt => plain (fst kt)) ks -> no_paren l ->
  fst (tryKeywords ks (parseEnumeratedType E n) l) <> Oof /\
  (forall a l', tryKeywords ks (parseEnumeratedType E n) l = (Ret a, l') -> moves l l').
Proof.
  induction ks as [|[k t] ks IH]; intros n l Hk Hn; cbn [tryKeywords].
  - destruct (enumerated_not n l Hn) as (e & l' & ->). split; discriminate.
  - inversion Hk as [|? ? Hk1 Hk2]; subst. cbn [fst] in Hk1. unfold pbind. destruct (pconsume k l) as [o l1] eqn:Hc.
    assert (M : moves l l1). { assert (Ho : exists ok, o = Ret ok) by (unfold pconsume in Hc; destruct (has_prefix _ _); inversion Hc; eauto). destruct Ho as (ok & ->). eapply pmv_consume; eauto. }
    destruct o as [[|]|e| |]; try (split; discriminate).
    + split; [discriminate|]. intros a l' Ha. inversion Ha; subst. auto.
    + destruct (IH n l1 Hk2 (no_paren_moves _ _ Hn M)) as [I1 I2]. split; [auto|]. intros a l' Ha. eapply moves_trans; [exact M|eauto].
    + unfold pconsume in Hc. destruct (has_prefix _ _); discriminate.
Qed.
Lemma attrType_runs : forall n l, no_paren l -> fst (parseAttributeType E n l) <> Oof /\ (forall a l', parseAttributeType E n l = (Ret a, l') -> moves l l').
Proof. intros n l Hn. apply keywords_run; auto. unfold attrKeywords. repeat (constructor; [cbn [fst]; unfold plain; plains|]). constructor. Qed.

(* ---- entity values ---- *)
Lemma dec_high : forall b, 128 <= b -> dec_val b = None. Proof. intros b Hb. unfold dec_val. destruct (_ && _) eqn:X; [lia|auto]. Qed.
Lemma hex_high : forall b, 128 <= b -> hex_val b = None.
Proof. intros b Hb. unfold hex_val. destruct (_ && _) eqn:X; [lia|]. destruct ((65 <=? b) && _) eqn:Y; [lia|]. destruct ((97 <=? b) && _) eqn:W; [lia|auto]. Qed.
Lemma utf8_at : forall c t, utf8 (c :: t) = encode_rune c ++ utf8 t. Proof. reflexivity. Qed.
Lemma scr_spec : forall acc base val, acc_ok acc base val -> 1 <= base <= 16 -> (forall c d, val c = Some d -> 0 <= d < base) -> (forall b, 128 <= b -> val b = None) ->
  forall t n x rest, 0 <= n <= 1114111 -> scrLoop acc n (utf8 t) = Ret (x, rest) ->
  exists t', rest = utf8 t' /\ suffix t' t /\ number base val true n t = Some (x, t').
Proof.
  intros acc base val Hacc Hb Hd Hh. induction t as [|c t IH]; intros n x rest Hn Hs; [discriminate|]. rewrite utf8_at in Hs.
  destruct (encode_cases c) as [[He Hc]|Hhi].
  - rewrite He in Hs. cbn [app scrLoop] in Hs. cbn [number]. destruct (Z.eqb_spec c 59) as [->|Hne].
    + inversion Hs; subst. exists t. split; [auto|]. split; [exists [59]; auto|auto].
    + rewrite <- (int32_small n) in Hs by lia. rewrite Hacc in Hs by auto. destruct (val c) as [d|] eqn:Hv; [|discriminate]. pose proof (Hd _ _ Hv).
      rewrite int32_small in Hs by nia. destruct (Z.ltb_spec 1114111 (n * base + d)); [discriminate|].
      apply IH in Hs as (t' & -> & Hs & Hr); [|nia]. exists t'. split; [auto|]. split; [eapply suffix_trans; [exact Hs|exists [c]; auto]|auto].
  - exfalso. destruct (encode_rune c) as [|b bs] eqn:He; [eapply encode_nonempty; eauto|]. inversion Hhi; subst. cbn [app scrLoop] in Hs.
    destruct (Z.eqb_spec b 59); [lia|]. rewrite <- (int32_small n) in Hs by lia. rewrite Hacc in Hs by auto. rewrite Hh in Hs by auto. discriminate.
Qed.
Lemma number_seen : forall base val t x t', number base val true 0 t = Some (x, t') -> x <> 0 -> number base val false 0 t = Some (x, t').
Proof. intros base val [|c t] x t' Hn Hx; [discriminate|]. cbn [number] in *. destruct (c =? 59); [inversion Hn; congruence|auto]. Qed.
Lemma scref_spec : forall t x rest, parseStringCharRef (utf8 (38 :: 35 :: t)) = Ret (x, rest) ->
  exists t', rest = utf8 t' /\ suffix t' t /\ reference (35 :: t) = Some (x, t') /\ isChar x = true.
Proof.
  intros t x rest Hp. unfold parseStringCharRef in Hp. change (utf8 (38 :: 35 :: t)) with (38 :: 35 :: utf8 t) in Hp.
  change (has_prefix (s_ "&#") (38 :: 35 :: utf8 t)) with true in Hp. cbn [negb skipn] in Hp.
  destruct t as [|c t]; [discriminate|]. rewrite utf8_at in Hp.
  destruct (encode_rune c ++ utf8 t) as [|b bs] eqn:Hu; [discriminate|].
  destruct (Z.eqb_spec b 120) as [->|Hb].
  - assert (Hc : c = 120 /\ bs = utf8 t).
    { destruct (encode_cases c) as [[He Hc]|Hhi]; [rewrite He in Hu; inversion Hu; auto|].
      destruct (encode_rune c) as [|b' bs'] eqn:He; [exfalso; eapply encode_nonempty; eauto|]. inversion Hhi; subst. inversion Hu; subst. lia. }
    destruct Hc as [-> ->]. destruct (scrLoop accHex 0 (utf8 t)) as [[v r]| | |] eqn:Hs; try discriminate.
    destruct (isChar v) eqn:Hv; [|discriminate]. inversion Hp; subst.
    apply (scr_spec accHex 16 hex_val accHex_ok ltac:(lia) hex_pos hex_high) in Hs as (t' & -> & Ht & Hn); [|lia].
    exists t'. split; [auto|]. split; [eapply suffix_trans; [exact Ht|exists [120]; auto]|]. pose proof (isChar_range _ Hv).
    apply number_seen in Hn; [|lia]. cbn [reference]. rewrite Hn, (isChar_xml _ Hv). auto.
  - rewrite <- Hu in Hp. change (encode_rune c ++ utf8 t) with (utf8 (c :: t)) in Hp. destruct (scrLoop accDec 0 (utf8 (c :: t))) as [[v r]| | |] eqn:Hs; try discriminate.
    destruct (isChar v) eqn:Hv; [|discriminate]. inversion Hp; subst.
    apply (scr_spec accDec 10 dec_val accDec_ok ltac:(lia) dec_pos dec_high) in Hs as (t' & -> & Ht & Hn); [|lia].
    exists t'. split; [auto|]. split; [auto|]. pose proof (isChar_range _ Hv). apply number_seen in Hn; [|lia].
    assert (Hc : c <> 120). { intros ->. rewrite encode_ascii in Hu by lia. inversion Hu; congruence. }
    split; [|auto].
    assert (Hr : forall X (a d : X), match c :: t with 120 :: _ => a | _ => d end = d).
    { intros X a d. repeat match goal with |- context [match ?z with _ => _ end] => is_var z; destruct z; try reflexivity end. congruence. }
    unfold reference. rewrite Hn, (isChar_xml _ Hv).
    repeat match goal with |- context [match ?z with _ => _ end] => is_var z; destruct z; try reflexivity end. congruence.
Qed.
Lemma decode_bytes : forall n bs rest out, Forall (fun b => 128 <= b) bs -> decodeEntities_fuel n (bs ++ rest) = Ret out ->
  exists m out', decodeEntities_fuel m rest = Ret out' /\ out = bs ++ out'.
Proof.
  induction n as [|n IH]; intros bs rest out Hb Hp.
  - cbn [decodeEntities_fuel] in Hp. destruct bs; [|discriminate]. exists 0%nat, out. auto.
  - destruct bs as [|b bs]; [exists (Datatypes.S n), out; auto|]. cbn [app decodeEntities_fuel] in Hp. inversion Hb; subst.
    assert (Hx : has_prefix (s_ "&#") (b :: bs ++ rest) = false) by (change (s_ "&#") with [38; 35]; cbn [has_prefix]; destruct (Z.eqb_spec 38 b); [lia|reflexivity]).
    rewrite Hx in Hp. destruct (Z.eqb_spec b 37); [lia|]. destruct (decodeEntities_fuel n (bs ++ rest)) as [o| | |] eqn:Hr; try discriminate.
    inversion Hp; subst. apply IH in Hr as (m & o' & Hm & ->); [|auto]. exists m, o'. auto.
Qed.
Lemma decode_inv : forall k t, (List.length t <= k)%nat -> legals t -> forall n out, decodeEntities_fuel n (utf8 t) = Ret out ->
  exists v, out = utf8 v /\ replaced t v /\ legals v.
Proof.
  induction k as [|k IH]; intros t Hk Hl n out Hd.
  { destruct t; [|cbn in Hk; lia]. exists []. destruct n; inversion Hd; (split; [auto|split; constructor]). }
  destruct t as [|c t]; [exists []; destruct n; inversion Hd; (split; [auto|split; constructor])|].
  cbn [List.length] in Hk. inversion Hl as [|? ? Hc Ht]; subst. rewrite utf8_at in Hd. destruct (encode_cases c) as [[He Hr]|Hhi].
  - rewrite He in Hd. cbn [app] in Hd. destruct n as [|n]; [discriminate|]. cbn [decodeEntities_fuel] in Hd.
    destruct (has_prefix (s_ "&#") (c :: utf8 t)) eqn:Hp.
    + change (s_ "&#") with [38; 35] in Hp. cbn [has_prefix] in Hp. destruct (Z.eqb_spec 38 c) as [<-|]; [|discriminate]. cbn [andb] in Hp.
      destruct t as [|d t]; [discriminate|]. rewrite utf8_at in Hp.
      assert (Hdd : d = 35). { destruct (encode_cases d) as [[He2 _]|Hh2]; [rewrite He2 in Hp; cbn [app] in Hp; lia|].
        destruct (encode_rune d) as [|b bs] eqn:He2; [exfalso; eapply encode_nonempty; eauto|]. inversion Hh2; subst. cbn [app] in Hp. lia. }
      subst d. change (38 :: utf8 (35 :: t)) with (utf8 (38 :: 35 :: t)) in Hd.
      destruct (parseStringCharRef (utf8 (38 :: 35 :: t))) as [[x rest]| | |] eqn:Hs; try discriminate. apply scref_spec in Hs as (t' & -> & Hsuf & Href & Hx).
      destruct (decodeEntities_fuel n (utf8 t')) as [o| | |] eqn:Ho; try discriminate. inversion Hd; subst.
      assert (Hl' : legals t'). { inversion Ht; subst. destruct Hsuf as (w & ->). apply Forall_app in H2. apply H2. }
      apply IH in Ho as (v & -> & Hv & Lv); [|cbn [List.length] in Hk; apply suffix_length in Hsuf; lia|auto]. exists (x :: v). split; [auto|]. split; [eapply rp_ref; eauto|].
      constructor; [rewrite legal_is; auto|auto].
    + destruct (c =? 37); [discriminate|]. destruct (decodeEntities_fuel n (utf8 t)) as [o| | |] eqn:Ho; try discriminate. inversion Hd; subst.
      apply IH in Ho as (v & -> & Hv & Lv); [|lia|auto]. exists (c :: v). split; [rewrite utf8_at, He; auto|]. split; [|constructor; auto]. apply rp_char; [|auto].
      intros ->. destruct t as [|d t]; [discriminate|]. cbn [hd]. intros ->. discriminate.
  - apply decode_bytes in Hd as (m & o & Ho & ->); [|auto]. apply IH in Ho as (v & -> & Hv & Lv); [|lia|auto].
    exists (c :: v). split; [auto|]. split; [|constructor; auto]. apply rp_char; [|auto]. intros ->. rewrite encode_ascii in Hhi by lia. inversion Hhi; lia.
Qed.
End S.
