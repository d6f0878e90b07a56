(* The parser accepts every document of the grammar of Grammar.v and delivers
   the events the grammar gives it. *)
From Coq Require Import Permutation.
From Verif Require Import Base Utf8 Utf8Proofs Encoding XmlSpec EscapeProofs Scan ScanProofs LexProofs Parser Grammar TextProofs.

(* a blank run may be reported as ignorable white space instead of characters *)
Definition same_text (e e' : event) : Prop :=
  e' = e \/ exists t, e = ECharacters t /\ e' = EIgnorableWhitespace t /\ t <> [] /\ blanks t.

Lemma same_text_refl : forall l, Forall2 same_text l l.
Proof. induction l; constructor; auto. left; auto. Qed.

(* a reference is either numeric or names one of the five entities *)
Lemma reference_cases : forall t x s, reference t = Some (x, s) ->
  (exists hex b, 38 :: t = refPrefix hex ++ b /\ refNumber hex b = Some (x, s) /\ xml_char x = true) \/
  (exists n, t = n ++ 59 :: s /\ predefined n = Some [x] /\ In n [s_ "lt"; s_ "gt"; s_ "amp"; s_ "apos"; s_ "quot"]).
Proof.
  intros t x s H.
  destruct t as [|c t]; [discriminate|].
  destruct (Z.eq_dec c 35) as [->|Hc].
  - left. destruct t as [|d t]; [discriminate|]. destruct (Z.eq_dec d 120) as [->|Hd].
    + exists true, t. cbn [reference] in H. split; [reflexivity|]. cbn [refNumber].
      destruct (number 16 hex_val false 0 t) as [[n r]|]; [|discriminate]. destruct (xml_char n) eqn:Hx; inversion H; subst; auto.
    + exists false, (d :: t). split; [reflexivity|]. cbn [refNumber].
      assert (Hr : reference (35 :: d :: t) = match number 10 dec_val false 0 (d :: t) with
                     | Some (n, r') => if xml_char n then Some (n, r') else None | None => None end).
      { cbn [reference]. destruct d as [|p|p]; auto. do 7 (try (destruct p as [p|p|]; auto)). exfalso; auto. }
      rewrite Hr in H. destruct (number 10 dec_val false 0 (d :: t)) as [[n r]|]; [|discriminate].
      destruct (xml_char n) eqn:Hx; inversion H; subst; auto.
  - right. unfold reference in H.
    repeat match type of H with
    | match ?l with [] => _ | _ => _ end = _ => destruct l as [|? ?]; try discriminate
    | match ?z with Z0 => _ | _ => _ end = _ => destruct z; try discriminate
    | match ?p with xI _ => _ | _ => _ end = _ => destruct p; try discriminate
    | Some _ = Some _ => injection H as <- <-
    | _ => idtac
    end; try (exfalso; apply Hc; reflexivity).
    all: first [ exists (s_ "lt"); split; [reflexivity|split; [reflexivity|simpl; tauto]]
               | exists (s_ "gt"); split; [reflexivity|split; [reflexivity|simpl; tauto]]
               | exists (s_ "amp"); split; [reflexivity|split; [reflexivity|simpl; tauto]]
               | exists (s_ "apos"); split; [reflexivity|split; [reflexivity|simpl; tauto]]
               | exists (s_ "quot"); split; [reflexivity|split; [reflexivity|simpl; tauto]] ].
Qed.

Lemma number_app : forall base val b x t y seen acc, number base val seen acc b = Some (x, t) ->
  number base val seen acc (b ++ y) = Some (x, t ++ y).
Proof.
  intros base val. induction b as [|c b IH]; intros x t y seen acc Hn; [discriminate|]. cbn [number app] in *.
  destruct (c =? 59); [destruct seen; inversion Hn; subst; auto|]. destruct (val c); [auto|discriminate].
Qed.
Lemma reference_app : forall t x t' y, reference t = Some (x, t') -> reference (t ++ y) = Some (x, t' ++ y).
Proof.
  intros t x t' y Hr.
  destruct (reference_cases t x t' Hr) as [(hex & bb & Ht & Hnum & Hxc)|(nm & Ht & Hp & Hnm)].
  - assert (Hnum' : refNumber hex (bb ++ y) = Some (x, t' ++ y)).
    { destruct hex; cbn [refNumber] in *; apply number_app; auto. }
    destruct hex.
    + change (refPrefix true) with [38; 35; 120] in Ht. cbn [app] in Ht. inversion Ht; subst; cbn [app reference].
      cbn [refNumber] in Hnum'. rewrite Hnum', Hxc. reflexivity.
    + change (refPrefix false) with [38; 35] in Ht. cbn [app] in Ht. inversion Ht; subst.
      cbn [refNumber] in Hnum'. destruct bb as [|d bb]; [discriminate Hnum|].
      cbn [app reference] in *. assert (d <> 120) by (intros ->; discriminate Hnum).
      rewrite Hnum', Hxc. destruct d as [|p|p]; auto. do 7 (try (destruct p as [p|p|]; auto)). exfalso; auto.
  - subst t. cbn [In] in Hnm. destruct Hnm as [<-|[<-|[<-|[<-|[<-|[]]]]]]; cbv in Hp; inversion Hp; subst; reflexivity.
Qed.

(* lengths of literals *)
Ltac lens := repeat match goal with
  | |- context [List.length (s_ ?x)] => let n := eval compute in (List.length (s_ x)) in change (List.length (s_ x)) with n
  | h : context [List.length (s_ ?x)] |- _ => let n := eval compute in (List.length (s_ x)) in change (List.length (s_ x)) with n in h
  end; cbn [List.length] in *.

Section C.
Variable E : env.
Hypothesis OK : env_ok E.
Variable S : Type.
Variable H : handler S.
Notation pst := (pst S).
Notation HT := (S * list (event * hres))%type.

(* the state s with a new input, namespace table, node stack, handler state and trace *)
Definition st (l : list Z) (tab : list (str * str)) (nd : list node) (ht : HT) (s : pst) : pst := {|
  inp := l; nsTab := tab; nodeTab := nd; attsSpecial := attsSpecial s; attsDefault := attsDefault s;
  hasPERefs := hasPERefs s; depth := depth s; inSubset := inSubset s; version := version s; encoding := encoding s;
  standalone := standalone s; intSubName := intSubName s; hs := fst ht; tr := snd ht |}.

(* the handler after some events, if it agrees to all of them *)
Fixpoint deliver (v : view) (ht : HT) (evs : list event) : option HT :=
  match evs with
  | [] => Some ht
  | e :: r => let '(h', a) := h_event H (fst ht) v e in
              match a with
              | HNil | HUnspec => deliver v (h', (e, a) :: snd ht) r
              | _ => None
              end
  end.
Lemma deliver_app : forall v a b ht, deliver v ht (a ++ b) =
  match deliver v ht a with Some ht' => deliver v ht' b | None => None end.
Proof.
  intros v; induction a as [|e a IH]; intros b ht; [reflexivity|]. cbn [app deliver].
  destruct (h_event H (fst ht) v e) as [h' []]; auto.
Qed.
Lemma deliver_cons : forall v e b ht, deliver v ht (e :: b) =
  match deliver v ht [e] with Some ht' => deliver v ht' b | None => None end.
Proof. intros v e b ht. apply (deliver_app v [e] b). Qed.

Lemma bind_ret : forall A B (m : M S A) (f : A -> M S B) s a s', m s = (Ret a, s') -> bind S m f s = f a s'.
Proof. intros A B m f s a s' Hm. unfold bind. rewrite Hm; auto. Qed.
Lemma wrap_ret : forall A (m : M S A) s a s', m s = (Ret a, s') -> wrap S m s = (Ret a, s').
Proof. intros A m s a s' Hm. unfold wrap. rewrite Hm; auto. Qed.
Lemma lift_st : forall A (p : P A) l o l' tab nd ht s, p l = (o, l') -> lift S p (st l tab nd ht s) = (o, st l' tab nd ht s).
Proof. intros A p l o l' tab nd ht s Hp. unfold lift. cbn [st inp]. rewrite Hp. reflexivity. Qed.
Lemma emit_st : forall e l tab nd ht ht' s, deliver (the_view S s) ht [e] = Some ht' ->
  emit S H e (st l tab nd ht s) = (Ret tt, st l tab nd ht' s).
Proof.
  intros e l tab nd ht ht' s Hd. unfold emit, wrap, emit_raw. cbn [deliver st hs] in *.
  change (the_view S (st l tab nd ht s)) with (the_view S s).
  destruct (h_event H (fst ht) (the_view S s) e) as [h' a]. destruct a; inversion Hd; subst; reflexivity.
Qed.
Lemma mskip_st : forall b l tab nd ht s, blanks b -> (match l with [] => True | c :: _ => blank c = false end) ->
  mskip S (st (b ++ l) tab nd ht s) = (Ret (negb (Nat.eqb (List.length b) 0)), st l tab nd ht s).
Proof.
  intros b l tab nd ht s Hb Hl. unfold mskip. apply lift_st. apply skipBlanks_app; [apply blanks_is; auto|].
  destruct l; auto. rewrite <- blank_is; auto.
Qed.
Lemma mpeek_st : forall c l tab nd ht s, mpeek E S (st (c :: l) tab nd ht s) = (Ret c, st (c :: l) tab nd ht s).
Proof. intros. apply lift_st. reflexivity. Qed.
Lemma mpeek_eq : forall l c r tab nd ht s, l = c :: r -> mpeek E S (st l tab nd ht s) = (Ret c, st l tab nd ht s).
Proof. intros; subst; apply mpeek_st. Qed.
Lemma madv1_st : forall c l tab nd ht s, madvance E S 1 (st (c :: l) tab nd ht s) = (Ret tt, st l tab nd ht s).
Proof. intros. apply lift_st. unfold padvance. rewrite advance_1. reflexivity. Qed.
Lemma mconsume_st : forall p l tab nd ht s, mconsume S p (st (p ++ l) tab nd ht s) = (Ret true, st l tab nd ht s).
Proof. intros. apply lift_st. apply pconsume_app. Qed.
Lemma mconsume_not_st : forall p l tab nd ht s, has_prefix p l = false ->
  mconsume S p (st l tab nd ht s) = (Ret false, st l tab nd ht s).
Proof. intros. apply lift_st. apply pconsume_not; auto. Qed.

(* ---- leaves ---- *)
Lemma parsePI_st0 : forall t l tab nd ht ht' s, pitarget E t ->
  deliver (the_view S s) ht [EProcessingInstruction (utf8 t) []] = Some ht' ->
  parsePI E S H (st (s_ "<?" ++ t ++ s_ "?>" ++ l) tab nd ht s) = (Ret tt, st l tab nd ht' s).
Proof.
  intros t l tab nd ht ht' s Ht Hd. unfold parsePI.
  erewrite bind_ret by (apply lift_st, scanPI_grammar0; auto). cbn [fst snd]. apply emit_st; auto.
Qed.
Lemma parsePI_st : forall t b x l tab nd ht ht' s, pitarget E t -> b <> [] -> blanks b -> pidata x ->
  deliver (the_view S s) ht [EProcessingInstruction (utf8 t) (utf8 x)] = Some ht' ->
  parsePI E S H (st (s_ "<?" ++ t ++ b ++ x ++ s_ "?>" ++ l) tab nd ht s) = (Ret tt, st l tab nd ht' s).
Proof.
  intros t b x l tab nd ht ht' s Ht Hb1 Hb2 Hx Hd. unfold parsePI.
  erewrite bind_ret by (apply lift_st, scanPI_grammar; auto). cbn [fst snd]. apply emit_st; auto.
Qed.
Lemma parseComment_st : forall b l tab nd ht ht' s, comment_text b ->
  deliver (the_view S s) ht [EComment (utf8 (crlf b))] = Some ht' ->
  parseComment E S H (st (s_ "<!--" ++ b ++ s_ "-->" ++ l) tab nd ht s) = (Ret tt, st l tab nd ht' s).
Proof.
  intros b l tab nd ht ht' s Hb Hd. unfold parseComment.
  erewrite bind_ret by (apply lift_st, scanComment_text; auto). apply emit_st; auto.
Qed.
Lemma parseCDSect_st : forall b l tab nd ht ht' s, cdata_text b ->
  deliver (the_view S s) ht [ECDataBlock (utf8 (crlf b))] = Some ht' ->
  parseCDSect E S H (st (s_ "<![CDATA[" ++ b ++ s_ "]]>" ++ l) tab nd ht s) = (Ret tt, st l tab nd ht' s).
Proof.
  intros b l tab nd ht ht' s (Hb1 & Hb2 & Hb3) Hd. unfold parseCDSect.
  erewrite bind_ret by apply mconsume_st. cbn [negb].
  erewrite bind_ret.
  2:{ apply wrap_ret. unfold parseCharData. erewrite bind_ret.
      2:{ apply lift_st, scanCharData_cdata; auto. apply cdata_no0; auto. }
      apply emit_st; eauto. }
  erewrite bind_ret by apply mconsume_st. reflexivity.
Qed.
Lemma parseCharData_st : forall t l tab nd ht s, text_run t -> starts_markup l ->
  exists e, same_text (ECharacters (utf8 (crlf t))) e /\
  forall ht', deliver (the_view S s) ht [e] = Some ht' ->
  parseCharData E S H false (st (t ++ l) tab nd ht s) = (Ret tt, st l tab nd ht' s).
Proof.
  intros t l tab nd ht s Ht Hl.
  set (u := utf8 (crlf t)). set (s1 := st l tab nd ht s).
  assert (Hscan : lift S (scanCharData E false) (st (t ++ l) tab nd ht s) = (Ret u, s1)).
  { apply lift_st. apply scanCharData_text; auto. }
  set (b := match fst (areBlanks E S H u s1) with Ret x => x | _ => false end).
  assert (Hb : areBlanks E S H u s1 = (Ret b, s1)) by reflexivity.
  exists (if b then EIgnorableWhitespace u else ECharacters u). split.
  - destruct b eqn:Hbb; [right|left; auto]. exists u. split; [auto|]. split; [auto|].
    assert (Hbl : forallb isBlankCh u = true).
    { unfold areBlanks in Hb. destruct (forallb isBlankCh u); [auto|]. discriminate Hb. }
    split.
    + subst u. destruct Ht as (Hne & _). destruct t as [|c t]; [congruence|].
      assert (Hc : crlf (c :: t) <> []). { cbn [crlf]. destruct t; [discriminate|]. destruct (_ && _); discriminate. }
      destruct (crlf (c :: t)) as [|x y]; [congruence|]. cbn [utf8 flat_map]. pose proof (encode_nonempty x).
      destruct (encode_rune x); [congruence|discriminate].
    + apply blanks_is. rewrite Forall_forall. rewrite forallb_forall in Hbl. auto.
  - intros ht' Hd. unfold parseCharData. rewrite (bind_ret _ _ _ _ _ _ _ Hscan).
    rewrite (bind_ret _ _ _ _ _ _ _ Hb). destruct b; apply emit_st; auto.
Qed.

(* ---- references ---- *)
Lemma charref_st : forall t x l, reference t = Some (x, l) -> x <> 65533 ->
  (exists hex b, 38 :: t = refPrefix hex ++ b /\ refNumber hex b = Some (x, l) /\ xml_char x = true) ->
  parseCharRef E (38 :: t) = (Ret x, l) /\ nth 1 (38 :: t) 0 = 35.
Proof.
  intros t x l Hr Hx (hex & b & Ht & Hn & Hc). split.
  - rewrite Ht. rewrite (charref_value E hex b x l Hn).
    assert (Hch : isChar x = true) by (rewrite isChar_spec, Hc; unfold RuneError; lia).
    rewrite int32_small; [rewrite Hch; reflexivity|]. apply isChar_range in Hch; lia.
  - rewrite Ht. destruct hex; reflexivity.
Qed.
Lemma five_names : forall n, In n [s_ "lt"; s_ "gt"; s_ "amp"; s_ "apos"; s_ "quot"] -> isNameOf E n /\ utf8 n = n /\ hd 0 n <> 35.
Proof.
  assert (Hl : forall x, 0 <= x < 128 -> isLetter E x = isAZ x) by apply (ok_letter E OK).
  assert (Hd : forall x, 0 <= x < 128 -> isDigit E x = isD x) by apply (ok_digit E OK).
  intros n Hn. cbn [In] in Hn.
  destruct Hn as [<-|[<-|[<-|[<-|[<-|[]]]]]]; (split; [|split; [reflexivity|discriminate]]);
  (split; [|vm_compute; discriminate]); cbn;
  (split; [unfold startName; rewrite Hl by lia; reflexivity|]);
  repeat constructor; unfold nameRest; rewrite Hl, Hd by lia; reflexivity.
Qed.
Lemma entityref_st : forall n x l tab nd ht s, predefined n = Some [x] -> In n [s_ "lt"; s_ "gt"; s_ "amp"; s_ "apos"; s_ "quot"] ->
  parseEntityRef E S H (st (38 :: n ++ 59 :: l) tab nd ht s) =
    (Ret {| e_id := 0; e_name := n; e_type := InternalPredefinedEntity; e_content := [x] |}, st l tab nd ht s).
Proof.
  intros n x l tab nd ht s Hp Hn. destruct (five_names n Hn) as (H1 & H2 & H3). unfold parseEntityRef.
  erewrite bind_ret by apply mpeek_st. cbn [negb]. rewrite Z.eqb_refl. cbn [negb].
  erewrite bind_ret by apply madv1_st.
  erewrite bind_ret.
  2:{ apply lift_st. unfold por_else. rewrite (parseName_app E n (59 :: l)); auto.
      cbn. unfold nameRest. rewrite (ok_letter E OK), (ok_digit E OK) by lia. split; [reflexivity|discriminate]. }
  erewrite bind_ret by apply mpeek_st. rewrite Z.eqb_refl. cbn [negb].
  erewrite bind_ret by apply madv1_st. rewrite H2, Hp. reflexivity.
Qed.
Lemma predefined_char : forall n x, predefined n = Some [x] -> In n [s_ "lt"; s_ "gt"; s_ "amp"; s_ "apos"; s_ "quot"] ->
  0 < x < 128 /\ xml_char x = true.
Proof. intros n x Hp Hn. cbn [In] in Hn. destruct Hn as [<-|[<-|[<-|[<-|[<-|[]]]]]]; cbv in Hp; inversion Hp; subst; split; try lia; reflexivity. Qed.

Lemma parseReference_st : forall K t x l tab nd ht ht' s, reference t = Some (x, l) -> x <> 65533 ->
  deliver (the_view S s) ht [ECharacters (utf8 [x])] = Some ht' ->
  parseReference E S H K (st (38 :: t) tab nd ht s) = (Ret tt, st l tab nd ht' s).
Proof.
  intros K t x l tab nd ht ht' s Hr Hx Hd. unfold parseReference.
  erewrite bind_ret by apply mpeek_st. rewrite Z.eqb_refl. cbn [negb].
  destruct (reference_cases t x l Hr) as [Hc|(n & Ht & Hp & Hn)].
  - destruct (charref_st t x l Hr Hx Hc) as [Hc1 Hc2].
    erewrite bind_ret. 2:{ apply lift_st. unfold ppeekn, peekn. cbn [pred]. reflexivity. }
    destruct t as [|c t]; [discriminate Hc2|]. cbn [nth] in *. subst c. rewrite Z.eqb_refl.
    erewrite bind_ret. 2:{ apply wrap_ret, lift_st. apply Hc1. }
    replace (encode_rune x) with (utf8 [x]) by apply app_nil_r. apply emit_st; auto.
  - subst t. erewrite bind_ret. 2:{ apply lift_st. unfold ppeekn, peekn. cbn [pred]. reflexivity. }
    destruct (five_names n Hn) as (_ & _ & H35). destruct n as [|c n]; [simpl in Hn; intuition discriminate|].
    cbn [app nth hd] in *. destruct (Z.eqb_spec c 35); [contradiction|].
    erewrite bind_ret. 2:{ apply wrap_ret. apply (entityref_st (c :: n) x l); auto. }
    cbn [e_name e_type e_content]. rewrite Z.eqb_refl, orb_true_r.
    destruct (predefined_char _ _ Hp Hn) as [Hx1 _].
    replace (str_eqb [x] []) with false by reflexivity.
    replace [x] with (utf8 [x]). 2:{ cbn. rewrite encode_ascii by lia. reflexivity. }
    apply emit_st; auto.
Qed.

(* ---- attribute values ---- *)
Lemma attrValueLoop_step : forall n q nz b sp en s, attrValueLoop E S H (Datatypes.S n) q nz b sp en s =
  bind S (mpeek E S) (fun c =>
      if (c =? q) || negb (isChar c) || (c =? 60) then
        (if sp && nz then bind S (mlift S (rtrim b)) (fun v => ret S (v, en)) else ret S (b, en))
      else if c =? 38 then
        bind S (mpeekn E S 2) (fun c2 =>
        if c2 =? 35 then
          bind S (wrap S (lift S (parseCharRef E))) (fun r =>
          attrValueLoop E S H n q nz (b ++ (if r =? 38 then s_ "&#38;" else encode_rune r)) false (en + 1))
        else
          bind S (wrap S (parseEntityRef E S H)) (fun e =>
          attrValueLoop E S H n q nz
            (b ++ (if e_type e =? InternalPredefinedEntity
                   then (if str_eqb (e_content e) [38] then s_ "&#38;" else e_content e)
                   else [38] ++ e_name e ++ [59])) false (en + 1)))
      else if (c =? 32) || (c =? 13) || (c =? 10) || (c =? 9) then
        let keep := negb (match b with [] => true | _ => false end) || negb nz in
        let b' := if keep && (negb nz || negb sp) then b ++ [32] else b in
        bind S (madvance E S 1) (fun _ =>
        attrValueLoop E S H n q nz b' (if keep then true else sp) en)
      else
        bind S (madvance E S 1) (fun _ => attrValueLoop E S H n q nz (b ++ encode_rune c) false en)) s.
Proof. reflexivity. Qed.

Lemma attlit_st : forall q lit v, attlit q lit v -> q = 34 \/ q = 39 -> forall n b sp en l tab nd ht s,
  (List.length lit < n)%nat ->
  exists en', attrValueLoop E S H n q false b sp en (st (lit ++ q :: l) tab nd ht s) =
    (Ret (b ++ v, en'), st (q :: l) tab nd ht s).
Proof.
  intros q lit v Hlit Hq. induction Hlit as [|c t v Hc Hb Hcq Hc1 Hc2 _ IH|c t v Hb Hcr _ IH|t x t' v Hr Hx1 Hx2 _ IH|t t' v Hr _ IH];
    intros n b sp en l tab nd ht s Hn; (destruct n as [|n]; [simpl in Hn; lia|]); rewrite attrValueLoop_step.
  - cbn [app]. erewrite bind_ret by apply mpeek_st. rewrite Z.eqb_refl. cbn [orb].
    rewrite andb_false_r. exists en. rewrite app_nil_r. reflexivity.
  - cbn [app]. erewrite bind_ret by apply mpeek_st. rewrite legal_is in Hc. rewrite Hc.
    unfold blank in Hb. destruct (Z.eqb_spec c q); [contradiction|]. destruct (Z.eqb_spec c 60); [contradiction|].
    destruct (Z.eqb_spec c 38); [contradiction|]. cbn [orb negb].
    replace ((c =? 32) || (c =? 13) || (c =? 10) || (c =? 9)) with false by lia.
    erewrite bind_ret by apply madv1_st.
    destruct (IH n (b ++ encode_rune c) false en l tab nd ht s ltac:(simpl in Hn; lia)) as [en' Hen]. exists en'.
    rewrite Hen. unfold utf8. cbn [flat_map]. rewrite app_nil_r, app_assoc. reflexivity.
  - cbn [app]. erewrite bind_ret by apply mpeek_st. unfold blank in Hb.
    assert (Hch : isChar c = true).
    { assert (c = 32 \/ c = 9 \/ c = 10 \/ c = 13) as Hcc by lia. destruct Hcc as [->|[->|[->| ->]]]; reflexivity. }
    rewrite Hch. destruct (Z.eqb_spec c q); [lia|]. destruct (Z.eqb_spec c 60); [lia|].
    destruct (Z.eqb_spec c 38); [lia|]. cbn [orb negb].
    replace ((c =? 32) || (c =? 13) || (c =? 10) || (c =? 9)) with true by lia. rewrite orb_true_r. cbn [andb orb negb]. cbv zeta.
    erewrite bind_ret by apply madv1_st.
    destruct (IH n (b ++ [32]) true en l tab nd ht s ltac:(simpl in Hn; lia)) as [en' Hen]. exists en'.
    rewrite Hen, <- app_assoc. reflexivity.
  - cbn [app]. erewrite bind_ret by apply mpeek_st. change (isChar 38) with true.
    destruct (Z.eqb_spec 38 q); [lia|]. change (38 =? 60) with false. change (38 =? 38) with true. cbn [orb negb].
    assert (Hlen : (List.length t' < n)%nat) by (apply reference_shrinks in Hr; simpl in Hn; lia).
    pose proof (reference_app t x t' (q :: l) Hr) as Hr'.
    destruct (reference_cases _ _ _ Hr') as [Hcase|(nm & Ht & Hp & Hnm)].
    + destruct (charref_st _ x _ Hr' Hx2 Hcase) as [Hc1 Hc2].
      erewrite bind_ret. 2:{ apply lift_st. unfold ppeekn, peekn. cbn [pred]. reflexivity. }
      destruct (t ++ q :: l) as [|c t0] eqn:Htt; [discriminate Hc2|]. cbn [nth] in *. subst c. rewrite Z.eqb_refl.
      erewrite bind_ret. 2:{ apply wrap_ret, lift_st. apply Hc1. }
      destruct (Z.eqb_spec x 38); [contradiction|].
      destruct (IH n (b ++ encode_rune x) false (en + 1) l tab nd ht s Hlen) as [en' Hen]. exists en'.
      rewrite Hen. unfold utf8. cbn [flat_map]. rewrite app_nil_r, app_assoc. reflexivity.
    + rewrite Ht. erewrite bind_ret. 2:{ apply lift_st. unfold ppeekn, peekn. cbn [pred]. reflexivity. }
      destruct (five_names nm Hnm) as (_ & _ & H35).
      assert (Hnn : nm <> []) by (intros ->; discriminate Hp).
      replace (nth 1 (38 :: nm ++ 59 :: t' ++ q :: l) (eofr E) =? 35) with false.
      2:{ destruct nm; [congruence|]. cbn [app nth hd] in *. lia. }
      erewrite bind_ret. 2:{ apply wrap_ret. apply (entityref_st nm x (t' ++ q :: l)); auto. }
      cbn [e_type e_content]. rewrite Z.eqb_refl.
      replace (str_eqb [x] [38]) with false by (cbn; lia).
      destruct (predefined_char _ _ Hp Hnm) as [Hx3 _].
      destruct (IH n (b ++ [x]) false (en + 1) l tab nd ht s Hlen) as [en' Hen]. exists en'.
      rewrite Hen. unfold utf8. cbn [flat_map]. rewrite encode_ascii by lia. rewrite app_nil_r, app_assoc. reflexivity.
  - cbn [app]. erewrite bind_ret by apply mpeek_st. change (isChar 38) with true.
    destruct (Z.eqb_spec 38 q); [lia|]. change (38 =? 60) with false. change (38 =? 38) with true. cbn [orb negb].
    assert (Hlen : (List.length t' < n)%nat) by (apply reference_shrinks in Hr; simpl in Hn; lia).
    pose proof (reference_app t 38 t' (q :: l) Hr) as Hr'.
    destruct (reference_cases _ _ _ Hr') as [Hcase|(nm & Ht & Hp & Hnm)].
    + destruct (charref_st _ 38 _ Hr' ltac:(lia) Hcase) as [Hc1 Hc2].
      erewrite bind_ret. 2:{ apply lift_st. unfold ppeekn, peekn. cbn [pred]. reflexivity. }
      destruct (t ++ q :: l) as [|c t0] eqn:Htt; [discriminate Hc2|]. cbn [nth] in *. subst c. rewrite Z.eqb_refl.
      erewrite bind_ret. 2:{ apply wrap_ret, lift_st. apply Hc1. }
      rewrite Z.eqb_refl.
      destruct (IH n (b ++ s_ "&#38;") false (en + 1) l tab nd ht s Hlen) as [en' Hen]. exists en'.
      rewrite Hen, app_assoc. reflexivity.
    + rewrite Ht. erewrite bind_ret. 2:{ apply lift_st. unfold ppeekn, peekn. cbn [pred]. reflexivity. }
      destruct (five_names nm Hnm) as (_ & _ & H35).
      assert (Hnn : nm <> []) by (intros ->; discriminate Hp).
      replace (nth 1 (38 :: nm ++ 59 :: t' ++ q :: l) (eofr E) =? 35) with false.
      2:{ destruct nm; [congruence|]. cbn [app nth hd] in *. lia. }
      erewrite bind_ret. 2:{ apply wrap_ret. apply (entityref_st nm 38 (t' ++ q :: l)); auto. }
      cbn [e_type e_content]. rewrite Z.eqb_refl. change (str_eqb [38] [38]) with true.
      destruct (IH n (b ++ s_ "&#38;") false (en + 1) l tab nd ht s Hlen) as [en' Hen]. exists en'.
      rewrite Hen, app_assoc. reflexivity.
Qed.

(* ---- attributes ---- *)
Lemma mskip0_st : forall l tab nd ht s, (match l with [] => True | c :: _ => blank c = false end) ->
  exists b, mskip S (st l tab nd ht s) = (Ret b, st l tab nd ht s).
Proof. intros l tab nd ht s Hl. eexists. apply (mskip_st [] l); auto. constructor. Qed.
Lemma quote_not_blank : forall q, q = 34 \/ q = 39 -> blank q = false.
Proof. intros q [->| ->]; reflexivity. Qed.
Lemma equals_end : forall e r, blanks e -> name_end E (e ++ 61 :: r) /\ hd 0 (e ++ 61 :: r) <> 58.
Proof.
  intros [|c e] r He.
  - split; [apply (name_end_ascii E OK); [lia|reflexivity]|discriminate].
  - inversion He as [|? ? Hc]; subst. split; [apply (name_end_blank E OK); auto|]. cbn. unfold blank in Hc. lia.
Qed.
Lemma parseAttribute_st : forall n nm p l e1 e2 q lit v r tab nd ht s, qnamed E p l -> blanks e1 -> blanks e2 ->
  q = 34 \/ q = 39 -> attlit q lit v -> attsSpecial s = [] -> (List.length lit < n)%nat ->
  parseAttribute E S H n nm (st (qname p l ++ e1 ++ [61] ++ e2 ++ [q] ++ lit ++ [q] ++ r) tab nd ht s) =
    (Ret (utf8 l, utf8 p, v), st r tab nd ht s).
Proof.
  intros n nm p l e1 e2 q lit v r tab nd ht s Hq He1 He2 Hqq Hlit Hsp Hn. unfold parseAttribute.
  destruct (equals_end e1 (e2 ++ [q] ++ lit ++ [q] ++ r) He1) as [B1 B2].
  erewrite bind_ret.
  2:{ apply lift_st. unfold pwrap. rewrite (parseQName_app E OK p l); auto. }
  cbv beta iota. erewrite bind_ret by reflexivity. cbn [st attsSpecial]. rewrite Hsp. cbn [lookupSpecial find].
  erewrite bind_ret by (apply mskip_st; [auto|reflexivity]).
  cbn [app]. erewrite bind_ret by apply madv1_st.
  erewrite bind_ret by (apply mskip_st; [auto|apply quote_not_blank; auto]).
  destruct (attlit_st q lit v Hlit Hqq n [] false 0 r tab nd ht s Hn) as [en Hen].
  erewrite bind_ret.
  2:{ apply wrap_ret. unfold parseAttributeValue. erewrite bind_ret by apply mpeek_st.
      replace ((q =? 34) || (q =? 39)) with true by lia. erewrite bind_ret by apply madv1_st.
      unfold always, parseAttributeValueInternal. cbn [app]. rewrite Hen. cbn [st inp fst snd peek]. rewrite Z.eqb_refl.
      rewrite advance_1. reflexivity. }
  reflexivity.
Qed.

(* the end of a start tag, and what is left of it after the attributes *)
Definition tail (e : bool) (r : list Z) : list Z := if e then 47 :: 62 :: r else 62 :: r.
Definition left (e : bool) (r : list Z) : list Z := if e then 47 :: 62 :: r else r.
Lemma tail_not_blank : forall e r, match tail e r with [] => True | c :: _ => blank c = false end.
Proof. destruct e; reflexivity. Qed.

Lemma name_not_blank : forall c, name_start E c = true -> blank c = false.
Proof.
  intros c Hc. apply (name_part_facts E OK c). unfold name_part, name_start in *.
  destruct (isLetter E c); cbn [orb] in *; [reflexivity|lia].
Qed.
Lemma qname_head : forall p l, qnamed E p l -> exists c r, qname p l = c :: r /\ name_start E c = true.
Proof.
  intros p l [Hp Hl]. destruct Hp as [->|Hp].
  - destruct l as [|c r]; [destruct Hl as [[] _]|]. exists c, r. split; [auto|]. apply Hl.
  - destruct p as [|c r]; [destruct Hp as [[] _]|]. exists c, (r ++ [58] ++ l). split; [auto|]. apply Hp.
Qed.
Lemma xmlns_ncname : ncname E (s_ "xmlns").
Proof.
  assert (Hl : forall x, 0 <= x < 128 -> isLetter E x = isAZ x) by apply (ok_letter E OK).
  split; [|split; [repeat constructor|vm_compute; discriminate]].
  cbn. unfold name_start, name_part. split; [|repeat constructor]; rewrite Hl by lia; reflexivity.
Qed.
Lemma legals_valid : forall l, legals l -> Forall (fun r => valid_rune r = true) l.
Proof. intros l Hl. eapply Forall_impl; [|exact Hl]. intros. apply legal_valid; auto. Qed.
Lemma ncname_valid : forall l, ncname E l -> Forall (fun r => valid_rune r = true) l.
Proof. intros l (_ & Hl & _). apply legals_valid; auto. Qed.
Lemma utf8_neq : forall l t, ncname E l -> utf8 t = t -> Forall (fun r => valid_rune r = true) t -> l <> t -> str_eqb (utf8 l) t = false.
Proof.
  intros l t Hl Ht Hv Hne. apply str_eqb_neq. rewrite <- Ht. intros Heq. apply Hne. apply utf8_inj; auto. apply ncname_valid; auto.
Qed.
Lemma neq_xmlns : forall l, ncname E l -> l <> s_ "xmlns" -> str_eqb (utf8 l) s_xmlns = false.
Proof. intros l Hl Hne. apply utf8_neq; auto. repeat constructor. Qed.
Lemma neq_xml : forall l, ncname E l -> l <> s_ "xml" -> str_eqb (utf8 l) s_xml = false.
Proof. intros l Hl Hne. apply utf8_neq; auto. repeat constructor. Qed.
Lemma utf8_nil : forall p, utf8 p = [] -> p = [].
Proof. intros [|c p] Hp; [auto|]. cbn in Hp. pose proof (encode_nonempty c). destruct (encode_rune c); [congruence|discriminate]. Qed.
Lemma str_eqb_nil : forall p, p <> [] -> str_eqb p [] = false.
Proof. intros [|c p] Hp; [congruence|reflexivity]. Qed.

Lemma lookupNS_absent : forall tab p, ~ In p (map fst tab) -> lookupNS tab p = [].
Proof.
  intros tab p Hp. unfold lookupNS. replace (find _ _) with (@None (str * str)); auto. symmetry.
  destruct (find _ (rev tab)) as [[a b]|] eqn:Hf; auto. exfalso. apply find_some in Hf. destruct Hf as [Hi He].
  apply str_eqb_eq in He. cbn [fst] in He. subst. apply Hp. apply in_rev in Hi. apply (in_map fst) in Hi. auto.
Qed.
Lemma lookupNS_present : forall tab p u, NoDup (map fst tab) -> In (p, u) tab -> lookupNS tab p = u.
Proof.
  intros tab p u Hnd Hi. unfold lookupNS. apply in_rev in Hi. assert (Hnd' : NoDup (map fst (rev tab))).
  { rewrite map_rev. apply NoDup_rev; auto. } induction (rev tab) as [|[a b] t IH]; [destruct Hi|].
  cbn [map fst find] in *. inversion Hnd'; subst. destruct (str_eqb_spec a p).
  - subst a. destruct Hi as [Hi|Hi]; [inversion Hi; auto|]. exfalso. match goal with h : ~ In p _ |- _ => apply h end. apply (in_map fst) in Hi; auto.
  - apply IH; auto. destruct Hi as [Hi|Hi]; auto. inversion Hi; congruence.
Qed.
Lemma pushNS_absent : forall tab p u, ~ In p (map fst tab) -> pushNS tab p u = tab ++ [(p, u)].
Proof.
  intros tab p u Hp. unfold pushNS. replace (existsb _ tab) with false; auto. symmetry. apply not_true_is_false. intros Hx.
  apply existsb_exists in Hx. destruct Hx as ([a b] & Hi & He). apply str_eqb_eq in He. cbn [fst] in He. subst. apply Hp.
  apply (in_map fst) in Hi. auto.
Qed.
Lemma NoDup_mid : forall (tab : list (str * str)) x ds, NoDup (map fst (tab ++ x :: ds)) -> ~ In (fst x) (map fst tab).
Proof.
  intros tab x ds Hn Hi. rewrite map_app in Hn. cbn [map] in Hn. apply NoDup_remove_2 in Hn. apply Hn. apply in_or_app; auto.
Qed.

Lemma attrLoop_step : forall n local attrs nbNs, attrLoop E S H (Datatypes.S n) local attrs nbNs =
  bind S (mskip S) (fun _ =>
  bind S (mpeek E S) (fun c =>
      if c =? 62 then bind S (madvance E S 1) (fun _ => ret S (attrs, nbNs))
      else
        bind S (mpeekn E S 2) (fun c2 =>
        if (c =? 47) && (c2 =? 62) then ret S (attrs, nbNs)
        else
          bind S (wrap S (parseAttribute E S H n local)) (fun a =>
          let '(attname, aprefix, attvalue) := a in
          let addAttr := attrs ++ [AAttr attname aprefix attvalue] in
          if str_eqb attname s_xmlns && str_eqb aprefix [] then
            bind S (modify S (fun s => set_nsTab S (pushNS (nsTab s) [] attvalue) s)) (fun _ =>
            bind S (afterNSDecl E S) (fun cont =>
            if (cont : bool) then attrLoop E S H n local attrs (Datatypes.S nbNs)
            else attrLoop E S H n local addAttr (Datatypes.S nbNs)))
          else if str_eqb aprefix s_xmlns then
            if str_eqb attname s_xml then
              if negb (str_eqb attvalue XMLNamespace) then failw S "xml namespace prefix mapped to wrong URI"
              else bind S (afterNSDecl E S) (fun _ => attrLoop E S H n local attrs nbNs)
            else if str_eqb attname s_xmlns then failw S "redefinition of the xmlns prefix forbidden"
            else if str_eqb attvalue XMLNSNamespace then failw S "reuse of the xmlns namespace name if forbidden"
            else if str_eqb attvalue [] then failw S "Empty XML namespace is not allowed"
            else if negb (urlOk E attvalue) then failw S "not a validURI"
            else
              bind S (get S (@nsTab S)) (fun tab =>
              if negb (str_eqb (lookupNS tab attname) []) then failw S "duplicate attribute is not allowed"
              else
                bind S (modify S (fun s => set_nsTab S (pushNS (nsTab s) attname attvalue) s)) (fun _ =>
                bind S (afterNSDecl E S) (fun _ =>
                attrLoop E S H n local attrs (Datatypes.S nbNs))))
          else attrLoop E S H n local addAttr nbNs)))).
Proof. reflexivity. Qed.
Lemma attrLoop_skip : forall n local attrs k b l tab nd ht s, blanks b -> (match l with [] => True | c :: _ => blank c = false end) ->
  attrLoop E S H (Datatypes.S n) local attrs k (st (b ++ l) tab nd ht s) = attrLoop E S H (Datatypes.S n) local attrs k (st l tab nd ht s).
Proof.
  intros n local attrs k b l tab nd ht s Hb Hl. rewrite attrLoop_step.
  erewrite (bind_ret _ _ (mskip S)) by (apply mskip_st; eauto). destruct (mskip0_st l tab nd ht s Hl) as [x Hx].
  erewrite (bind_ret _ _ (mskip S)) by exact Hx. reflexivity.
Qed.

(* what follows white space in the attributes of a start tag *)
Lemma atts_strip : forall t a d, atts E t a d -> forall e r, exists b l,
  t ++ tail e r = b ++ l /\ blanks b /\ (match l with [] => True | c :: _ => blank c = false end) /\ (b = [] -> t = []).
Proof.
  intros t a d Ht e r. destruct Ht.
  - exists b, (tail e r). split; [auto|]. split; [auto|]. split; [apply tail_not_blank|auto].
  - destruct (qname_head p l H2) as (c & z & Hq & Hc). eexists b, (_ ++ tail e r). rewrite <- app_assoc. split; [reflexivity|].
    split; [auto|]. split; [|congruence]. rewrite Hq. apply name_not_blank; auto.
  - eexists b, (_ ++ tail e r). rewrite <- app_assoc. split; [reflexivity|].
    split; [auto|]. split; [|congruence]. reflexivity.
  - eexists b, (_ ++ tail e r). rewrite <- app_assoc. split; [reflexivity|].
    split; [auto|]. split; [|congruence]. reflexivity.
Qed.
Lemma afterNSDecl_st : forall t a d, atts E t a d -> forall e r tab nd ht s, exists b l x,
  t ++ tail e r = b ++ l /\ blanks b /\ (match l with [] => True | c :: _ => blank c = false end) /\
  afterNSDecl E S (st (t ++ tail e r) tab nd ht s) = (Ret x, st l tab nd ht s) /\ (t = [] -> x = true).
Proof.
  intros t a d Ht e r tab nd ht s. destruct (atts_strip t a d Ht e r) as (b & l & Heq & Hb & Hl & Hbt).
  exists b, l. destruct b as [|c b].
  - rewrite (Hbt eq_refl) in *. cbn [app] in Heq. exists true. split; [auto|]. split; [auto|]. split; [auto|]. split; [|auto].
    rewrite <- Heq. unfold afterNSDecl. destruct e; reflexivity.
  - exists false. split; [auto|]. split; [auto|]. split; [auto|]. split.
    + rewrite Heq. inversion Hb as [|? ? Hc Hb']; subst. unfold afterNSDecl.
      cbn [app]. erewrite bind_ret by apply mpeek_st.
      erewrite bind_ret by (apply lift_st; reflexivity). unfold blank in Hc.
      replace ((c =? 62) || has_prefix (s_ "/>") (c :: b ++ l)) with false.
      2:{ cbn [s_ has_prefix]. cbn. replace (47 =? c) with false by lia. cbn [andb]. lia. }
      rewrite <- blank_is. unfold blank. rewrite Hc. cbn [negb].
      rewrite app_comm_cons. erewrite bind_ret by (apply mskip_st; auto). reflexivity.
    + intros ->. exfalso. destruct e; cbn in Heq; inversion Heq; subst; inversion Hb; discriminate.
Qed.

Lemma atts_st : forall t a d, atts E t a d -> forall e r n nm acc k tab nd ht s, attsSpecial s = [] ->
  NoDup (map fst (tab ++ d)) -> (List.length t < n)%nat ->
  attrLoop E S H n nm acc k (st (t ++ tail e r) tab nd ht s) =
    (Ret (acc ++ a, (k + List.length d)%nat), st (left e r) (tab ++ d) nd ht s).
Proof.
  intros t a d Ht. induction Ht as [b Hb|b p l e1 e2 q lit v t a d Hb1 Hb2 Hql Hx1 Hx2 He1 He2 Hq Hlit Ht IH
    |b l e1 e2 q lit v t a d Hb1 Hb2 Hl Hl1 Hl2 He1 He2 Hq Hlit Hv1 Hv2 Hu Ht IH
    |b e1 e2 q lit v Hb1 Hb2 He1 He2 Hq Hlit Hv];
  intros e r n nm acc k tab nd ht s Hsp Hnd Hn; (destruct n as [|n]; [lia|]).
  - rewrite attrLoop_skip by (auto; apply tail_not_blank). rewrite attrLoop_step.
    destruct (mskip0_st (tail e r) tab nd ht s (tail_not_blank e r)) as [x Hx]. erewrite bind_ret by exact Hx.
    rewrite !app_nil_r, Nat.add_0_r. destruct e; reflexivity.
  - rewrite <- !app_assoc. destruct (qname_head p l Hql) as (c & z & Hqn & Hc).
    rewrite attrLoop_skip; auto. 2:{ rewrite Hqn. apply name_not_blank; auto. }
    rewrite attrLoop_step. rewrite !app_length in Hn. cbn [List.length] in Hn.
    destruct (mskip0_st (qname p l ++ e1 ++ [61] ++ e2 ++ [q] ++ lit ++ [q] ++ t ++ tail e r) tab nd ht s) as [x Hx].
    { rewrite Hqn. apply name_not_blank; auto. }
    erewrite bind_ret by exact Hx. clear x Hx.
    erewrite bind_ret by (eapply mpeek_eq; rewrite Hqn; reflexivity).
    destruct (name_start_facts E OK c Hc) as (C1 & C2 & C3 & _). destruct (Z.eqb_spec c 62); [contradiction|].
    erewrite bind_ret by (apply lift_st; reflexivity). destruct (Z.eqb_spec c 47); [contradiction|]. cbn [andb].
    erewrite bind_ret. 2:{ apply wrap_ret. apply (parseAttribute_st n nm p l e1 e2 q lit v); auto. lia. }
    cbv beta iota zeta.
    replace (str_eqb (utf8 l) s_xmlns && str_eqb (utf8 p) []) with false.
    2:{ symmetry. destruct p as [|y p]; [|rewrite (str_eqb_nil (utf8 (y :: p))), andb_false_r; auto].
        rewrite neq_xmlns; [reflexivity|apply Hql|auto]. intros X; apply utf8_nil in X; discriminate. }
    replace (str_eqb (utf8 p) s_xmlns) with false.
    2:{ symmetry. destruct Hql as [[->|Hp] _]; [reflexivity|]. apply neq_xmlns; auto. }
    rewrite IH by (auto; lia). rewrite <- app_assoc. reflexivity.
  - rewrite <- !app_assoc. set (p := s_ "xmlns"). assert (Hql : qnamed E p l) by (split; [right; apply xmlns_ncname|auto]).
    destruct (qname_head p l Hql) as (c & z & Hqn & Hc).
    rewrite attrLoop_skip; auto. 2:{ rewrite Hqn. apply name_not_blank; auto. }
    rewrite attrLoop_step. rewrite !app_length in Hn. cbn [List.length] in Hn.
    destruct (mskip0_st (qname p l ++ e1 ++ [61] ++ e2 ++ [q] ++ lit ++ [q] ++ t ++ tail e r) tab nd ht s) as [x Hx].
    { rewrite Hqn. apply name_not_blank; auto. }
    erewrite bind_ret by exact Hx. clear x Hx.
    erewrite bind_ret by (eapply mpeek_eq; rewrite Hqn; reflexivity).
    destruct (name_start_facts E OK c Hc) as (C1 & C2 & C3 & _). destruct (Z.eqb_spec c 62); [contradiction|].
    erewrite bind_ret by (apply lift_st; reflexivity). destruct (Z.eqb_spec c 47); [contradiction|]. cbn [andb].
    erewrite bind_ret. 2:{ apply wrap_ret. apply (parseAttribute_st n nm p l e1 e2 q lit v); auto. lia. }
    cbv beta iota zeta. change (utf8 p) with p. change (str_eqb p []) with false. rewrite andb_false_r.
    change (str_eqb p s_xmlns) with true.
    rewrite (neq_xml l) by auto.
    rewrite (neq_xmlns l) by auto.
    destruct (str_eqb_spec v XMLNSNamespace) as [Hbad|_]; [exfalso; apply Hv2; exact Hbad|].
    rewrite str_eqb_nil by auto. rewrite Hu. cbn [negb].
    assert (Hnew : ~ In (utf8 l) (map fst tab)) by (apply NoDup_mid in Hnd; exact Hnd).
    erewrite bind_ret by reflexivity. cbn [st nsTab]. rewrite lookupNS_absent by auto. cbn [str_eqb negb].
    erewrite bind_ret by reflexivity. rewrite pushNS_absent by auto.
    change (set_nsTab S (tab ++ [(utf8 l, v)]) (st (t ++ tail e r) tab nd ht s)) with (st (t ++ tail e r) (tab ++ [(utf8 l, v)]) nd ht s).
    destruct (afterNSDecl_st t a d Ht e r (tab ++ [(utf8 l, v)]) nd ht s) as (b' & l' & x & Heq & Hb' & Hl' & Hrun & _).
    erewrite bind_ret by exact Hrun. destruct n as [|n]; [lia|].
    rewrite <- (attrLoop_skip n nm acc (Datatypes.S k) b' l') by auto. rewrite <- Heq.
    rewrite IH; [|auto|rewrite <- app_assoc; auto|lia]. rewrite <- app_assoc. cbn [List.length app]. rewrite Nat.add_succ_r. reflexivity.
  - rewrite <- !app_assoc. assert (Hql : qnamed E [] (s_ "xmlns")) by (split; [left; auto|apply xmlns_ncname]).
    change (s_ "xmlns" ++ e1 ++ [61] ++ e2 ++ [q] ++ lit ++ [q] ++ tail e r) with (qname [] (s_ "xmlns") ++ e1 ++ [61] ++ e2 ++ [q] ++ lit ++ [q] ++ tail e r).
    destruct (qname_head [] (s_ "xmlns") Hql) as (c & z & Hqn & Hc).
    rewrite attrLoop_skip; auto. 2:{ rewrite Hqn. apply name_not_blank; auto. }
    rewrite attrLoop_step. rewrite !app_length in Hn. cbn [List.length] in Hn.
    destruct (mskip0_st (qname [] (s_ "xmlns") ++ e1 ++ [61] ++ e2 ++ [q] ++ lit ++ [q] ++ tail e r) tab nd ht s) as [x Hx].
    { rewrite Hqn. apply name_not_blank; auto. }
    erewrite bind_ret by exact Hx. clear x Hx.
    erewrite bind_ret by (eapply mpeek_eq; rewrite Hqn; reflexivity).
    destruct (name_start_facts E OK c Hc) as (C1 & C2 & C3 & _). destruct (Z.eqb_spec c 62); [contradiction|].
    erewrite bind_ret by (apply lift_st; reflexivity). destruct (Z.eqb_spec c 47); [contradiction|]. cbn [andb].
    erewrite bind_ret. 2:{ apply wrap_ret. apply (parseAttribute_st n nm [] (s_ "xmlns") e1 e2 q lit v); auto. lia. }
    cbv beta iota zeta. change (str_eqb (utf8 (s_ "xmlns")) s_xmlns && str_eqb (utf8 []) []) with true. cbv iota.
    assert (Hnew : ~ In [] (map fst tab)) by (apply NoDup_mid in Hnd; exact Hnd).
    erewrite bind_ret by reflexivity. cbn [st nsTab]. rewrite pushNS_absent by auto.
    change (set_nsTab S (tab ++ [([], v)]) (st (tail e r) tab nd ht s)) with (st (tail e r) (tab ++ [([], v)]) nd ht s).
    assert (Hrun : afterNSDecl E S (st (tail e r) (tab ++ [([], v)]) nd ht s) = (Ret true, st (tail e r) (tab ++ [([], v)]) nd ht s)) by (destruct e; reflexivity).
    erewrite bind_ret by exact Hrun. destruct n as [|n]; [lia|]. rewrite attrLoop_step.
    destruct (mskip0_st (tail e r) (tab ++ [([], v)]) nd ht s (tail_not_blank e r)) as [x Hx]. erewrite bind_ret by exact Hx.
    rewrite app_nil_r. cbn [List.length]. rewrite Nat.add_1_r. destruct e; reflexivity.
Qed.

(* ---- namespaces in scope and the parser's table ---- *)
Definition scoped (ns tab : list (str * str)) : Prop :=
  NoDup (map fst tab) /\ (forall p u, In (p, u) tab -> u <> []) /\
  (forall p u, bound ns p = Some u -> In (p, u) tab) /\ (In [] (map fst tab) -> bound ns [] <> None).
Lemma bound_app : forall a b p, bound (a ++ b) p = match bound a p with Some u => Some u | None => bound b p end.
Proof. induction a as [|[x u] a IH]; intros b p; [auto|]. cbn [app bound]. destruct (str_eqb x p); auto. Qed.
Lemma bound_in : forall a p u, bound a p = Some u -> In (p, u) a.
Proof. induction a as [|[x v] a IH]; intros p u Hb; [discriminate|]. cbn [bound] in Hb. destruct (str_eqb_spec x p); [inversion Hb; subst; left; auto|right; auto]. Qed.
Lemma bound_none : forall a p, bound a p = None -> ~ In p (map fst a).
Proof.
  induction a as [|[x v] a IH]; intros p Hb; [intros []|]. cbn [bound] in Hb. destruct (str_eqb_spec x p); [discriminate|].
  intros [Hi|Hi]; [auto|]. apply (IH p); auto.
Qed.
Lemma atts_values : forall t a d, atts E t a d -> forall p u, In (p, u) d -> u <> [].
Proof. intros t a d Ht. induction Ht; intros pp uu Hi; [destruct Hi|eauto|destruct Hi as [Hi|Hi]; [inversion Hi; subst; auto|eauto]|destruct Hi as [Hi|[]]; inversion Hi; subst; auto]. Qed.
Lemma scoped_inner : forall ns tab d, scoped ns tab -> NoDup (map fst (tab ++ d)) -> (forall p u, In (p, u) d -> u <> []) ->
  scoped (rev d ++ ns) (tab ++ d).
Proof.
  intros ns tab d (H1 & H2 & H3 & H4) Hnd Hv. split; [auto|]. split; [|split].
  - intros p u Hi. apply in_app_or in Hi. destruct Hi; eauto.
  - intros p u Hb. rewrite bound_app in Hb. apply in_or_app. destruct (bound (rev d) p) as [u'|] eqn:Hd.
    + inversion Hb; subst. right. apply in_rev. apply bound_in; auto.
    + left; auto.
  - intros Hi. rewrite bound_app. destruct (bound (rev d) []) as [u'|] eqn:Hd; [discriminate|].
    apply bound_none in Hd. apply H4. rewrite map_app in Hi. apply in_app_or in Hi. destruct Hi as [Hi|Hi]; [auto|].
    exfalso. apply Hd. rewrite map_rev. apply -> in_rev; auto.
Qed.
Lemma scoped_after : forall ns tab d, scoped ns tab -> NoDup (map fst (tab ++ d)) -> (forall p u, In (p, u) d -> u <> []) ->
  ~ In [] (map fst d) -> scoped ns (tab ++ d).
Proof.
  intros ns tab d (H1 & H2 & H3 & H4) Hnd Hv Hd. split; [auto|]. split; [|split].
  - intros p u Hi. apply in_app_or in Hi. destruct Hi; eauto.
  - intros p u Hb. apply in_or_app; auto.
  - intros Hi. apply H4. rewrite map_app in Hi. apply in_app_or in Hi. destruct Hi as [Hi|Hi]; [auto|contradiction].
Qed.
Lemma resolves_lookup : forall ns tab p u, scoped ns tab -> resolves ns p u ->
  lookupNS tab p = u /\ (p <> [] -> u <> []).
Proof.
  intros ns tab p u (H1 & H2 & H3 & H4) Hr. unfold resolves in Hr. destruct (bound ns p) as [u'|] eqn:Hb.
  - subst u'. split; [apply lookupNS_present; auto|]. intros _. apply (H2 p). auto.
  - destruct Hr as [-> ->]. split; [|congruence]. apply lookupNS_absent. intros Hi. apply H4 in Hi. auto.
Qed.

Scheme content_mut := Minimality for content Sort Prop with element_mut := Minimality for element Sort Prop.
Lemma content_values : forall ns s evs d, content E ns s evs d -> forall p u, In (p, u) d -> u <> [].
Proof.
  apply (content_mut E (fun ns s evs d => forall p u, In (p, u) d -> u <> []) (fun ns s evs d => forall p u, In (p, u) d -> u <> []));
  intros; repeat match goal with h : In _ (_ ++ _) |- _ => apply in_app_or in h; destruct h | h : In _ [] |- _ => destruct h end;
  eauto using atts_values.
Qed.
Lemma element_values : forall ns s evs d, element E ns s evs d -> forall p u, In (p, u) d -> u <> [].
Proof.
  intros ns s evs d He. destruct He; intros;
  repeat match goal with h : In _ (_ ++ _) |- _ => apply in_app_or in h; destruct h end; eauto using atts_values, content_values.
Qed.

(* ---- tags ---- *)
Lemma lastn_app : forall (A : Type) (a b : list A), lastn (List.length b) (a ++ b) = b.
Proof. intros A a b. unfold lastn. rewrite app_length. replace (List.length a + List.length b - List.length b)%nat with (List.length a) by lia. rewrite skipn_app, skipn_all, Nat.sub_diag. reflexivity. Qed.
Lemma tag_name_end : forall t a d e r, atts E t a d -> name_end E (t ++ tail e r) /\ hd 0 (t ++ tail e r) <> 58.
Proof.
  intros t a d e r Ht. destruct (atts_strip t a d Ht e r) as (b & l & Heq & Hb & Hl & Hbt). rewrite Heq.
  destruct b as [|c b].
  - rewrite (Hbt eq_refl) in Heq. cbn [app] in *. rewrite <- Heq.
    destruct e; (split; [apply (name_end_ascii E OK); [lia|reflexivity]|discriminate]).
  - inversion Hb as [|? ? Hc]; subst. split; [apply (name_end_blank E OK); auto|]. cbn. unfold blank in Hc. lia.
Qed.
Lemma utf8_ne : forall l, l <> [] -> utf8 l <> [].
Proof. intros l Hl Hu. apply Hl. apply utf8_nil; auto. Qed.

Lemma parseStartTag_st : forall n p l t a d u ns e r tab nd ht ht' s,
  qnamed E p l -> atts E t a d -> resolves (rev d ++ ns) (utf8 p) u -> scoped ns tab -> NoDup (map fst (tab ++ d)) ->
  attsSpecial s = [] -> attsDefault s = [] -> (List.length t < n)%nat ->
  deliver (the_view S s) ht [EStartElement (utf8 l) (utf8 p) u (map Some d) a] = Some ht' ->
  parseStartTag E S H n (st (60 :: qname p l ++ t ++ tail e r) tab nd ht s) =
    (Ret tt, st (left e r) (tab ++ d) ((utf8 l, utf8 p, u) :: nd) ht' s).
Proof.
  intros n p l t a d u ns e r tab nd ht ht' s Hql Ht Hr Hsc Hnd Hsp Hdf Hn Hd. unfold parseStartTag.
  erewrite bind_ret by apply mpeek_st. rewrite Z.eqb_refl. cbn [negb]. erewrite bind_ret by apply madv1_st.
  destruct (tag_name_end t a d e r Ht) as [T1 T2].
  erewrite bind_ret. 2:{ apply lift_st. unfold por_else. rewrite (parseQName_app E OK p l); auto. }
  cbv beta iota. assert (Hl : utf8 l <> []). { apply utf8_ne. destruct Hql as [_ Hl]. destruct l; [destruct Hl as [[] _]|discriminate]. }
  destruct (utf8 l) as [|l0 lr] eqn:Hul; [congruence|]. rewrite <- Hul in *.
  erewrite bind_ret by (apply (atts_st t a d Ht); auto). cbv beta iota. cbn [app Nat.add].
  erewrite bind_ret by reflexivity. cbn [st attsDefault]. rewrite Hdf. cbn [defaultsOf filter map].
  assert (Hp0 : forall k, permute E k [] = []) by (intro; apply Permutation_nil, Permutation_sym, ok_permute, OK).
  rewrite Hp0. cbn [map]. rewrite app_nil_r. erewrite bind_ret by reflexivity. cbn [st nsTab].
  pose proof (scoped_inner ns tab d Hsc Hnd (atts_values t a d Ht)) as Hsc'.
  destruct (resolves_lookup _ _ _ _ Hsc' Hr) as [Hlk Hun]. rewrite Hlk.
  replace (negb (str_eqb (utf8 p) []) && str_eqb u []) with false.
  2:{ symmetry. destruct (str_eqb_spec (utf8 p) []); [reflexivity|]. rewrite str_eqb_nil; auto. }
  cbv zeta. rewrite lastn_app, Nat.sub_diag. cbn [repeat]. rewrite app_nil_r.
  erewrite bind_ret by (apply emit_st; exact Hd).
  unfold modify. replace (if str_eqb u [] then [] else utf8 p) with (utf8 p); [reflexivity|].
  destruct (str_eqb_spec u []); auto. destruct (utf8 p); auto. exfalso. apply Hun; [discriminate|auto].
Qed.
Lemma nodeName_q : forall p l u, qnamed E p l -> runes_of (nodeName (utf8 l, utf8 p, u)) = qname p l.
Proof.
  intros p l u [Hp Hl]. assert (Hv : Forall (fun r => valid_rune r = true) (qname p l)).
  { destruct Hp as [->|Hp]; [apply ncname_valid; auto|]. destruct p as [|c p]; [apply ncname_valid; auto|].
    unfold qname. apply Forall_app. split; [apply ncname_valid; auto|]. constructor; [reflexivity|apply ncname_valid; auto]. }
  replace (nodeName (utf8 l, utf8 p, u)) with (utf8 (qname p l)); [apply runes_of_utf8; auto|].
  unfold nodeName, qname. destruct p as [|c p]; [reflexivity|]. rewrite !utf8_app.
  destruct (utf8 (c :: p)) as [|x y] eqn:Hx; [apply utf8_nil in Hx; discriminate|]. reflexivity.
Qed.
Lemma parseEndTag_st : forall p l u r tab nd ht ht' s, qnamed E p l ->
  deliver (the_view S s) ht [EEndElement (utf8 l) (utf8 p) u] = Some ht' ->
  parseEndTag E S H (st (s_ "</" ++ qname p l ++ s_ ">" ++ r) tab ((utf8 l, utf8 p, u) :: nd) ht s) = (Ret tt, st r tab nd ht' s).
Proof.
  intros p l u r tab nd ht ht' s Hq Hd. unfold parseEndTag.
  erewrite bind_ret by (apply mconsume_not_st; reflexivity). erewrite bind_ret by reflexivity. cbn [st nodeTab].
  erewrite bind_ret.
  2:{ erewrite bind_ret by apply mconsume_st. cbn [negb].
      erewrite bind_ret. 2:{ rewrite (nodeName_q p l u Hq). apply mconsume_st. }
      cbn [negb]. erewrite bind_ret by apply mpeek_st. change (62 =? 62) with true. cbn [negb]. apply madv1_st. }
  cbv beta iota. erewrite bind_ret by (apply emit_st; exact Hd). reflexivity.
Qed.
Lemma parseEndTag_empty_st : forall p l u r tab nd ht ht' s,
  deliver (the_view S s) ht [EEndElement l p u] = Some ht' ->
  parseEndTag E S H (st (s_ "/>" ++ r) tab ((l, p, u) :: nd) ht s) = (Ret tt, st r tab nd ht' s).
Proof.
  intros p l u r tab nd ht ht' s Hd. unfold parseEndTag.
  erewrite bind_ret by apply mconsume_st. erewrite bind_ret by reflexivity. cbn [st nodeTab].
  erewrite bind_ret by reflexivity. cbv beta iota. erewrite bind_ret by (apply emit_st; exact Hd). reflexivity.
Qed.

(* ---- content ---- *)
Definition stop (r : list Z) : Prop := r = [] \/ has_prefix (s_ "</") r = true.
Lemma parseContent_step : forall n l tab nd ht s, parseContent E S H (Datatypes.S n) (st l tab nd ht s) =
  if done l then (Ret tt, st l tab nd ht s)
  else (if has_prefix (s_ "</") l then ret S tt
         else if has_prefix (s_ "<?") l then bind S (wrap S (parsePI E S H)) (fun _ => parseContent E S H n)
         else if has_prefix (s_ "<![CDATA[") l then bind S (wrap S (parseCDSect E S H)) (fun _ => parseContent E S H n)
         else if has_prefix (s_ "<!--") l then bind S (wrap S (parseComment E S H)) (fun _ => parseContent E S H n)
         else if has_prefix (s_ "<") l then bind S (wrap S (parseElement E S H n (parseContent E S H n))) (fun _ => parseContent E S H n)
         else if has_prefix (s_ "&") l then bind S (wrap S (parseReference E S H (parseContent E S H n))) (fun _ => parseContent E S H n)
         else bind S (parseCharData E S H false) (fun _ => parseContent E S H n)) (st l tab nd ht s).
Proof.
  intros n l tab nd ht s. cbn [parseContent]. unfold mdone. erewrite bind_ret by reflexivity. cbn [st inp]. destruct (done l); reflexivity.
Qed.
Lemma parseContent_stop : forall n r tab nd ht s, stop r -> (0 < n)%nat ->
  parseContent E S H n (st r tab nd ht s) = (Ret tt, st r tab nd ht s).
Proof.
  intros n r tab nd ht s Hr Hn. destruct n as [|n]; [lia|]. rewrite parseContent_step. destruct Hr as [->|Hr]; [reflexivity|].
  destruct (done r); [auto|]. rewrite Hr. reflexivity.
Qed.
Definition oks (s : pst) : Prop := attsSpecial s = [] /\ attsDefault s = [].
(* what is claimed of a run: some reading of blank runs, and exact delivery *)
Definition runs (v : view) (evs : list event) (ht : HT) (run : HT -> Prop) : Prop :=
  exists evs', Forall2 same_text evs evs' /\ forall ht', deliver v ht evs' = Some ht' -> run ht'.
Lemma runs_app : forall v a b ht (ra : HT -> Prop) (r : HT -> Prop), runs v a ht ra ->
  (forall h1, ra h1 -> runs v b h1 r) -> runs v (a ++ b) ht r.
Proof.
  intros v a b ht ra r (ea & Fa & Da) Hb. destruct (deliver v ht ea) as [h1|] eqn:Hd.
  - destruct (Hb h1 (Da h1 eq_refl)) as (eb & Fb & Db). exists (ea ++ eb). split; [apply Forall2_app; auto|].
    intros ht' Hx. rewrite deliver_app, Hd in Hx. auto.
  - exists (ea ++ b). split; [apply Forall2_app; auto; apply same_text_refl|]. intros ht' Hx. rewrite deliver_app, Hd in Hx. discriminate.
Qed.
Lemma runs_one : forall v e b ht (r : HT -> Prop), (forall h1, deliver v ht [e] = Some h1 -> runs v b h1 r) -> runs v (e :: b) ht r.
Proof.
  intros v e b ht r Hb. apply (runs_app v [e] b ht (fun h1 => deliver v ht [e] = Some h1)); auto.
  exists [e]. split; [apply same_text_refl|]. auto.
Qed.
Lemma runs_end : forall v ht (r : HT -> Prop), r ht -> runs v [] ht r.
Proof. intros v ht r Hr. exists []. split; [constructor|]. intros ht' Hd. inversion Hd; subst; auto. Qed.

Definition Pcontent (ns : list (str * str)) (c : list Z) (evs : list event) (d : list (str * str)) : Prop :=
  forall n r tab nd ht s, stop r -> oks s -> scoped ns tab -> NoDup (map fst (tab ++ d)) -> ~ In [] (map fst d) ->
  (List.length (c ++ r) < n)%nat ->
  runs (the_view S s) evs ht (fun ht' => parseContent E S H n (st (c ++ r) tab nd ht s) = (Ret tt, st r (tab ++ d) nd ht' s)).
Definition Pelement (ns : list (str * str)) (c : list Z) (evs : list event) (d : list (str * str)) : Prop :=
  forall n r tab nd ht s, oks s -> scoped ns tab -> NoDup (map fst (tab ++ d)) -> ~ In [] (map fst d) ->
  (List.length (c ++ r) <= n)%nat ->
  runs (the_view S s) evs ht (fun ht' =>
    parseElement E S H n (parseContent E S H n) (st (c ++ r) tab nd ht s) = (Ret tt, st r (tab ++ d) nd ht' s)).

(* one item, then the rest of the content *)
Lemma content_item : forall ns x s e evs d n r tab nd ht z, Pcontent ns s evs d ->
  stop r -> oks z -> scoped ns tab -> NoDup (map fst (tab ++ d)) -> ~ In [] (map fst d) ->
  (List.length (x ++ s ++ r) < n)%nat -> (0 < List.length x)%nat ->
  (forall m ht', (List.length (x ++ s ++ r) <= m)%nat -> deliver (the_view S z) ht [e] = Some ht' ->
     parseContent E S H (Datatypes.S m) (st (x ++ s ++ r) tab nd ht z) = parseContent E S H m (st (s ++ r) tab nd ht' z)) ->
  runs (the_view S z) (e :: evs) ht (fun ht' => parseContent E S H n (st (x ++ s ++ r) tab nd ht z) = (Ret tt, st r (tab ++ d) nd ht' z)).
Proof.
  intros ns x s e evs d n r tab nd ht z IH Hr Hz Hsc Hnd Hde Hn Hx Hstep. rewrite app_length in Hn. destruct n as [|n]; [lia|].
  apply runs_one. intros h1 Hd. destruct (IH n r tab nd h1 z) as (evs' & F & D); auto; [lia|].
  exists evs'. split; [auto|]. intros ht' Hd'. rewrite (Hstep n h1); auto. rewrite app_length; lia.
Qed.

Lemma elem_head : forall ns x evs d, element E ns x evs d -> exists c r, x = 60 :: c :: r /\ name_start E c = true.
Proof.
  intros ns x evs d He. destruct He as [p l t a d u Hq|p l t a d u s evs d1 Hq];
  destruct (qname_head p l Hq) as (c & z & Hqn & Hc); rewrite Hqn; cbn [s_ app]; cbn; eauto.
Qed.

Lemma NoDup_app_l : forall (A : Type) (a b : list A), NoDup (a ++ b) -> NoDup a.
Proof. intros A. induction a as [|x a IH]; intros b Hn; [constructor|]. inversion Hn; subst. constructor; [|eauto]. intros Hi. apply H2. apply in_or_app; auto. Qed.
Lemma element_full : forall p l t a d u ns s evs d1, qnamed E p l -> atts E t a d -> resolves (rev d ++ ns) (utf8 p) u ->
  Pcontent (rev d ++ ns) s evs d1 ->
  forall n r tab nd ht z, oks z -> scoped ns tab -> NoDup (map fst (tab ++ d ++ d1)) -> ~ In [] (map fst d1) ->
  let c := s_ "<" ++ qname p l ++ t ++ s_ ">" ++ s ++ s_ "</" ++ qname p l ++ s_ ">" in
  (forall x, s <> s_ "/>" ++ x) ->
  (List.length (c ++ r) <= n)%nat ->
  runs (the_view S z) ([EStartElement (utf8 l) (utf8 p) u (map Some d) a] ++ evs ++ [EEndElement (utf8 l) (utf8 p) u]) ht (fun ht' =>
    parseElement E S H n (parseContent E S H n) (st (c ++ r) tab nd ht z) = (Ret tt, st r (tab ++ d ++ d1) nd ht' z)).
Proof.
  intros p l t a d u ns s evs d1 Hq Ht Hr IH n r tab nd ht z [Z1 Z2] Hsc Hnd Hde c Hsl Hn.
  subst c. rewrite <- !app_assoc in *. rewrite !app_length in Hn. cbn [List.length] in Hn.
  assert (Hnd' : NoDup (map fst (tab ++ d))). { rewrite app_assoc, map_app in Hnd. apply NoDup_app_l in Hnd. exact Hnd. }
  apply runs_one. intros h1 Hd1.
  assert (Hstart := parseStartTag_st n p l t a d u ns false (s ++ s_ "</" ++ qname p l ++ s_ ">" ++ r) tab nd ht h1 z Hq Ht Hr Hsc Hnd' Z1 Z2).
  cbn [tail left] in Hstart.
  apply (runs_app _ _ _ _ (fun h2 => parseContent E S H n (st (s ++ s_ "</" ++ qname p l ++ s_ ">" ++ r) (tab ++ d) ((utf8 l, utf8 p, u) :: nd) h1 z)
     = (Ret tt, st (s_ "</" ++ qname p l ++ s_ ">" ++ r) ((tab ++ d) ++ d1) ((utf8 l, utf8 p, u) :: nd) h2 z))).
  - apply IH; auto.
    + right. reflexivity.
    + split; auto.
    + apply scoped_inner; auto. eapply atts_values; eauto.
    + rewrite <- app_assoc; auto.
    + rewrite !app_length. lens. lia.
  - intros h2 Hc. apply runs_one. intros h3 Hd3. apply runs_end. unfold parseElement.
    erewrite bind_ret. 2:{ apply wrap_ret. apply Hstart; auto. lens. lia. }
    erewrite bind_ret. 2:{ apply lift_st. unfold phas. reflexivity. }
    replace (has_prefix (s_ "/>") (s ++ s_ "</" ++ qname p l ++ s_ ">" ++ r)) with false.
    2:{ clear - Hsl. symmetry. destruct s as [|x [|y s]]; cbn; [reflexivity|rewrite andb_false_r; reflexivity|].
        destruct (Z.eqb_spec 47 x); [|reflexivity]. destruct (Z.eqb_spec 62 y); [|reflexivity]. subst. exfalso. apply (Hsl s). reflexivity. }
    erewrite bind_ret. 2:{ apply wrap_ret. exact Hc. }
    rewrite (app_assoc tab d d1). apply wrap_ret. apply parseEndTag_st; auto.
Qed.

Lemma starts_app : forall s r, starts_markup s -> stop r -> starts_markup (s ++ r).
Proof.
  intros s r Hs Hr. destruct s as [|c s]; [|destruct Hs as [Hs|Hs]; [discriminate|right; exact Hs]].
  destruct Hr as [->|Hr]; [left; auto|]. right; left. destruct r as [|c r]; [discriminate|]. cbn in Hr. cbn [app hd].
  destruct (Z.eqb_spec 60 c); [auto|discriminate].
Qed.

Lemma elem_prefix : forall c w, c <> 47 -> c <> 63 -> c <> 33 ->
  has_prefix (s_ "</") (60 :: c :: w) = false /\ has_prefix (s_ "<?") (60 :: c :: w) = false /\
  has_prefix (s_ "<![CDATA[") (60 :: c :: w) = false /\ has_prefix (s_ "<!--") (60 :: c :: w) = false /\
  has_prefix (s_ "<") (60 :: c :: w) = true.
Proof.
  intros c w C1 C2 C3. cbn. destruct (Z.eqb_spec 47 c); [congruence|]. destruct (Z.eqb_spec 63 c); [congruence|].
  destruct (Z.eqb_spec 33 c); [congruence|]. cbn [andb]. auto.
Qed.

Theorem content_st : forall ns c evs d, content E ns c evs d -> Pcontent ns c evs d.
Proof.
  apply (content_mut E Pcontent Pelement); intros ns.
  - intros n r tab nd ht s Hr Hs Hsc Hnd Hd Hn. apply runs_end. rewrite app_nil_r. apply parseContent_stop; [auto|lia].
  - intros t t' s evs d Ht Ht' Hm Hc IH n r tab nd ht z Hr Hz Hsc Hnd Hd Hn.
    rewrite <- app_assoc in *. assert (Htne : t <> []) by apply Ht. destruct t as [|c t]; [congruence|].
    destruct n as [|n]; [cbn in Hn; lia|].
    destruct (parseCharData_st (c :: t) (s ++ r) tab nd ht z Ht (starts_app s r Hm Hr)) as (e & He & Hrun).
    rewrite (eol_crlf_eq _ _ Ht') in *. assert (Hx : runs (the_view S z) (e :: evs) ht (fun ht' =>
       parseContent E S H (Datatypes.S n) (st ((c :: t) ++ s ++ r) tab nd ht z) = (Ret tt, st r (tab ++ d) nd ht' z))).
    { apply (content_item ns (c :: t) s e evs d (Datatypes.S n) r tab nd ht z); auto; [cbn; lia|].
      intros m ht' Hm' Hdl. rewrite parseContent_step. cbn [app done].
      assert (c <> 60 /\ c <> 38) as [C1 C2].
      { destruct Ht as (_ & _ & T1 & T2 & _). split; intros ->; [apply T1|apply T2]; left; auto. }
      cbn [s_ has_prefix]. cbn. destruct (Z.eqb_spec 60 c); [congruence|]. destruct (Z.eqb_spec 38 c); [congruence|]. cbn [andb].
      erewrite bind_ret by (apply Hrun; exact Hdl). reflexivity. }
    destruct Hx as (evs' & F & D). inversion F as [|? e' ? es' Fe Fs]; subst.
    exists (e' :: es'). split; [|exact D]. constructor; auto. destruct Fe as [->|(tx & X1 & X2 & X3)]; [auto|].
    destruct He as [->|(ty & Y1 & Y2 & Y3)]; [right; eauto|subst; discriminate].
  - intros t x s evs d Hr Hx Hc IH n r tab nd ht z Hst Hz Hsc Hnd Hd Hn.
    assert (exists p, t = p ++ s) as [p ->].
    { destruct (reference_cases t x s Hr) as [(hex & b & Ht & Hnum & _)|(nm & Ht & _)]; [|exists (nm ++ [59]); rewrite <- app_assoc; auto].
      assert (exists q, b = q ++ s) as [q ->].
      { clear - Hnum. assert (G : forall base val b seen acc, number base val seen acc b = Some (x, s) -> exists q, b = q ++ s).
        { intros base val. induction b0 as [|c b0 IH]; intros seen acc Hn; [discriminate|]. cbn [number] in Hn. destruct (c =? 59).
          destruct seen; inversion Hn; subst; exists [c]; auto. destruct (val c); [|discriminate]. destruct (IH _ _ Hn) as [q ->]. exists (c :: q); auto. }
        destruct hex; cbn [refNumber] in Hnum; eapply G; eauto. }
      destruct hex; cbn [refPrefix] in Ht; inversion Ht; subst; [exists (35 :: 120 :: q)|exists (35 :: q)]; reflexivity. }
    pose proof (reference_app _ _ _ r Hr) as Hr'.
    change (38 :: p ++ s) with ((38 :: p) ++ s) in *. rewrite <- app_assoc in *.
    apply (content_item ns (38 :: p) s _ evs d n r tab nd ht z); auto; [cbn; lia|].
    intros m ht' Hm' Hdl. rewrite parseContent_step. cbn [app done].
    refine (bind_ret _ _ (wrap S (parseReference E S H (parseContent E S H m))) (fun _ => parseContent E S H m) _ tt _ _).
    apply wrap_ret. apply (parseReference_st _ _ x); auto.
  - intros b b' s evs d Hb Hb' Hc IH n r tab nd ht z Hst Hz Hsc Hnd Hd Hn. rewrite (eol_crlf_eq _ _ Hb') in *.
    assert (Heq : (s_ "<!--" ++ b ++ s_ "-->" ++ s) ++ r = (s_ "<!--" ++ b ++ s_ "-->") ++ s ++ r) by (rewrite <- !app_assoc; reflexivity).
    rewrite Heq in *. apply (content_item ns _ s _ evs d n r tab nd ht z); auto; [cbn; lia|].
    intros m ht' Hm' Hdl. rewrite <- !app_assoc. rewrite parseContent_step.
    refine (bind_ret _ _ (wrap S (parseComment E S H)) (fun _ => parseContent E S H m) _ tt _ _). apply wrap_ret. apply parseComment_st; auto.
  - intros t s evs d Ht Hc IH n r tab nd ht z Hst Hz Hsc Hnd Hd Hn.
    assert (Heq : (s_ "<?" ++ t ++ s_ "?>" ++ s) ++ r = (s_ "<?" ++ t ++ s_ "?>") ++ s ++ r) by (rewrite <- !app_assoc; reflexivity).
    rewrite Heq in *. apply (content_item ns _ s _ evs d n r tab nd ht z); auto; [cbn; lia|].
    intros m ht' Hm' Hdl. rewrite <- !app_assoc. rewrite parseContent_step.
    refine (bind_ret _ _ (wrap S (parsePI E S H)) (fun _ => parseContent E S H m) _ tt _ _). apply wrap_ret. apply parsePI_st0; auto.
  - intros t b x s evs d Ht Hb1 Hb2 Hx Hc IH n r tab nd ht z Hst Hz Hsc Hnd Hd Hn.
    assert (Heq : (s_ "<?" ++ t ++ b ++ x ++ s_ "?>" ++ s) ++ r = (s_ "<?" ++ t ++ b ++ x ++ s_ "?>") ++ s ++ r) by (rewrite <- !app_assoc; reflexivity).
    rewrite Heq in *. apply (content_item ns _ s _ evs d n r tab nd ht z); auto; [cbn; lia|].
    intros m ht' Hm' Hdl. rewrite <- !app_assoc. rewrite parseContent_step.
    refine (bind_ret _ _ (wrap S (parsePI E S H)) (fun _ => parseContent E S H m) _ tt _ _). apply wrap_ret. apply parsePI_st; auto.
  - intros b b' s evs d Hb Hb' Hc IH n r tab nd ht z Hst Hz Hsc Hnd Hd Hn. rewrite (eol_crlf_eq _ _ Hb') in *.
    assert (Heq : (s_ "<![CDATA[" ++ b ++ s_ "]]>" ++ s) ++ r = (s_ "<![CDATA[" ++ b ++ s_ "]]>") ++ s ++ r) by (rewrite <- !app_assoc; reflexivity).
    rewrite Heq in *. apply (content_item ns _ s _ evs d n r tab nd ht z); auto; [cbn; lia|].
    intros m ht' Hm' Hdl. rewrite <- !app_assoc. rewrite parseContent_step.
    refine (bind_ret _ _ (wrap S (parseCDSect E S H)) (fun _ => parseContent E S H m) _ tt _ _). apply wrap_ret. apply parseCDSect_st; auto.
  - intros x s evs1 d1 evs d He IHe Hc IHc n r tab nd ht z Hst Hz Hsc Hnd Hd Hn.
    destruct (elem_head _ _ _ _ He) as (c & y & Hx & Hcs).
    rewrite <- app_assoc in *. destruct n as [|n]; [lia|]. rewrite app_assoc in Hnd. rewrite map_app in Hd.
    apply (runs_app _ _ _ _ (fun h1 => parseElement E S H n (parseContent E S H n) (st (x ++ s ++ r) tab nd ht z) = (Ret tt, st (s ++ r) (tab ++ d1) nd h1 z))).
    + apply IHe; auto; [rewrite map_app in Hnd; apply NoDup_app_l in Hnd; auto| |lia]. intros Hi. apply Hd. apply in_or_app; auto.
    + intros h1 Hel. assert (Hnd1 : NoDup (map fst (tab ++ d1))) by (rewrite map_app in Hnd; apply NoDup_app_l in Hnd; auto).
      destruct (IHc n r (tab ++ d1) nd h1 z) as (evs' & F & D); auto.
      { apply scoped_after; auto; [eapply element_values; eauto|]. intros Hi. apply Hd. apply in_or_app; auto. }
      { intros Hi. apply Hd. apply in_or_app; auto. }
      { rewrite Hx, app_length in Hn. cbn in Hn. lia. }
      exists evs'. split; [auto|]. intros ht' Hdl. rewrite <- (app_assoc tab) in D. rewrite <- (D ht' Hdl), parseContent_step, Hx.
      rewrite Hx in Hel. cbn [app done].
      destruct (name_start_facts E OK c Hcs) as (C1 & C2 & C3 & C4 & C5 & C6 & C7).
      destruct (elem_prefix c (y ++ s ++ r) C3 C6 C7) as (-> & -> & -> & -> & ->).
      refine (bind_ret _ _ (wrap S (parseElement E S H n (parseContent E S H n))) (fun _ => parseContent E S H n) _ tt _ _).
      apply wrap_ret. exact Hel.
  - intros p l t a d u Hq Ht Hr n r tab nd ht z [Z1 Z2] Hsc Hnd Hd Hn.
    rewrite <- !app_assoc in *. rewrite !app_length in Hn. lens.
    apply runs_one. intros h1 Hd1. apply runs_one. intros h2 Hd2. apply runs_end. unfold parseElement.
    erewrite bind_ret. 2:{ apply wrap_ret. apply (parseStartTag_st n p l t a d u ns true r); eauto. lia. }
    cbn [left]. erewrite bind_ret by (apply lift_st; reflexivity). cbv iota.
    erewrite bind_ret by reflexivity. apply wrap_ret. apply (parseEndTag_empty_st (utf8 p) (utf8 l) u); auto.
  - intros p l t a d u s evs d1 Hq Ht Hr Hc IHc Hsl n r tab nd ht z Hz Hsc Hnd Hd Hn.
    apply (element_full p l t a d u ns s evs d1); auto. intros Hi. apply Hd. rewrite map_app. apply in_or_app; auto.
Qed.
End C.
