From Verif Require Import Base Utf8 Utf8Proofs Escape XmlSpec.
Ltac Zify.zify_post_hook ::= Z.div_mod_to_equations.

Lemma fmt_X_small r : 0 <= r < 256 ->
  fmt_X r = if r <? 16 then [hexdig r] else [hexdig (r / 16); hexdig (r mod 16)].
Proof.
  intros H. unfold fmt_X. cbn [fmt_hex_fuel].
  destruct (r <? 16) eqn:E; [reflexivity|].
  destruct (r / 16 <? 16) eqn:E2; [reflexivity|lia].
Qed.

Lemma hexdig_val d : 0 <= d < 16 -> hex_val (hexdig d) = Some d.
Proof.
  intros H. unfold hexdig, hex_val.
  destruct (d <? 10) eqn:E.
  - destruct (_ && _) eqn:E2; [f_equal; lia|lia].
  - destruct ((48 <=? 55 + d) && (55 + d <=? 57)) eqn:E2; [lia|].
    destruct ((65 <=? 55 + d) && (55 + d <=? 70)) eqn:E3; [f_equal; lia|lia].
Qed.

Lemma hexdig_bound d : 0 <= d < 16 -> 48 <= hexdig d <= 70 /\ hexdig d <> 59 /\ hexdig d <> 60 /\ hexdig d <> 62.
Proof. unfold hexdig. destruct (d <? 10) eqn:E; lia. Qed.

Lemma number_hexdig b seen acc d rest :
  0 <= d < 16 ->
  number b hex_val seen acc (hexdig d :: rest) = number b hex_val true (acc * b + d) rest.
Proof.
  intros H. cbn [number]. destruct (hexdig d =? 59) eqn:E.
  - apply Z.eqb_eq in E. assert (K := hexdig_bound d H). lia.
  - rewrite hexdig_val by exact H. reflexivity.
Qed.

Lemma number_fmt_X r rest :
  0 <= r < 256 -> number 16 hex_val false 0 (fmt_X r ++ 59 :: rest) = Some (r, rest).
Proof.
  intros H. rewrite fmt_X_small by exact H.
  destruct (r <? 16) eqn:E; cbn [app]; rewrite !number_hexdig by lia; cbn [number];
  rewrite Z.eqb_refl; repeat f_equal; lia.
Qed.

Lemma reference_hex r rest :
  0 <= r < 256 -> xml_char r = true ->
  reference ([35; 120] ++ fmt_X r ++ 59 :: rest) = Some (r, rest).
Proof.
  intros H Hc. cbn [app reference]. rewrite number_fmt_X by exact H. rewrite Hc. reflexivity.
Qed.

Lemma fmt_X_hex r : 0 <= r < 256 -> hex_digits (fmt_X r).
Proof.
  intros H. rewrite fmt_X_small by exact H. unfold hex_digits.
  destruct (r <? 16) eqn:E; (split; [discriminate|]);
  repeat (constructor; [rewrite hexdig_val by lia; discriminate|]); constructor.
Qed.

Lemma fmt_X_ascii r : 0 <= r < 256 -> Forall (fun c => 0 <= c < 128) (fmt_X r).
Proof.
  intros H. rewrite fmt_X_small by exact H.
  assert (K := hexdig_bound r). assert (K1 := hexdig_bound (r / 16)). assert (K2 := hexdig_bound (r mod 16)).
  destruct (r <? 16) eqn:E; repeat constructor; lia.
Qed.

(* Every chunk of a byte string is non-empty, holds bytes, and is either an
   invalid byte or the encoding of its rune. *)
Definition chunk_ok (c : Z * str) : Prop :=
  valid_rune (fst c) = true /\ bytes_ok (snd c) /\ snd c <> [] /\
  ((fst c = RuneError /\ List.length (snd c) = 1%nat) \/ snd c = encode_rune (fst c)).

Lemma chunks_ok s : bytes_ok s -> Forall chunk_ok (chunks s).
Proof.
  induction s as [|s Hs IH] using chunks_ind; intros Hb; [constructor|].
  rewrite chunks_unfold by exact Hs. constructor.
  - assert (Hw := decode_rune_width s Hs).
    assert (Hl : List.length (firstn (snd (decode_rune s)) s) = snd (decode_rune s)).
    { rewrite firstn_length. lia. }
    repeat split; cbn [fst snd].
    + apply decode_rune_valid; assumption.
    + apply bytes_ok_firstn; exact Hb.
    + intro E. rewrite E in Hl. cbn in Hl. lia.
    + destruct (decode_rune_encode s Hb Hs) as [[H1 H2]|H].
      * left. split; [exact H1|]. rewrite Hl. exact H2.
      * right. exact H.
  - apply IH. apply bytes_ok_skipn. exact Hb.
Qed.

(* What a reader is to see for a decoded rune. *)
Definition shown (r : Z) : Z := if xml_char r then r else RuneError.

Lemma valid_range r : valid_rune r = true -> 0 <= r <= 1114111 /\ (r < 55296 \/ 57344 <= r).
Proof. unfold valid_rune. lia. Qed.

Lemma inrange_xml_char r : valid_rune r = true -> isInCharacterRange r = xml_char r.
Proof.
  intros H. apply valid_range in H. unfold isInCharacterRange, xml_char. lia.
Qed.

(* What is written for one chunk, as runes: either a reference or the rune. *)
Lemma esc_text1_cases nl c :
  chunk_ok c ->
  let r := fst c in
  (exists b, ref_body b /\ esc_text1 nl c = 38 :: b ++ [59] /\
     (forall rest, xml_char r = true -> reference (b ++ 59 :: rest) = Some (r, rest)) /\
     Forall (fun x => 0 <= x < 128) b /\ (xml_char r = true \/ 0 <= r < 32))
  \/ (exists r', r' = shown r /\ esc_text1 nl c = encode_rune r' /\
        r' <> 38 /\ r' <> 60 /\ r' <> 62 /\ xml_char r' = true).
Proof.
  destruct c as [r bs]. cbn [fst]. intros (Hv & Hb & Hne & Henc). cbn [fst snd] in *.
  assert (Hr := valid_range r Hv).
  unfold esc_text1.
  destruct (r =? 38) eqn:E38.
  { left. apply Z.eqb_eq in E38. subst r. exists (s_ "amp"). split; [constructor|].
    split; [reflexivity|]. split; [intros; reflexivity|]. split; [repeat constructor; lia|]. left; reflexivity. }
  destruct (r =? 60) eqn:E60.
  { left. apply Z.eqb_eq in E60. subst r. exists (s_ "lt"). split; [constructor|].
    split; [reflexivity|]. split; [intros; reflexivity|]. split; [repeat constructor; lia|]. left; reflexivity. }
  destruct (r =? 62) eqn:E62.
  { left. apply Z.eqb_eq in E62. subst r. exists (s_ "gt"). split; [constructor|].
    split; [reflexivity|]. split; [intros; reflexivity|]. split; [repeat constructor; lia|]. left; reflexivity. }
  assert (Raw : xml_char r = true ->
                ~ (r = 65533 /\ List.length bs = 1%nat) ->
                exists r', r' = shown r /\ bs = encode_rune r' /\ r' <> 38 /\ r' <> 60 /\ r' <> 62 /\ xml_char r' = true).
  { intros Hc Hn. exists r. unfold shown. rewrite Hc. split; [reflexivity|].
    destruct Henc as [[He1 He2]|He]; [exfalso; apply Hn; split; assumption|].
    split; [exact He|]. lia. }
  destruct (r =? 10) eqn:E10.
  { apply Z.eqb_eq in E10. subst r. destruct nl.
    - left. exists (s_ "#10"). split; [apply rb_dec; split; [discriminate|repeat (constructor; [discriminate|]); constructor]|].
      split; [reflexivity|]. split; [intros; reflexivity|]. split; [repeat constructor; lia|]. left; reflexivity.
    - right. apply Raw; [reflexivity|lia]. }
  destruct (r =? 13) eqn:E13.
  { apply Z.eqb_eq in E13. subst r. left. exists (s_ "#13").
    split; [apply rb_dec; split; [discriminate|repeat (constructor; [discriminate|]); constructor]|].
    split; [reflexivity|]. split; [intros; reflexivity|]. split; [repeat constructor; lia|]. left; reflexivity. }
  destruct (negb ((r =? 9) || (32 <=? r) && (r <? 128)) && (r <? 224)) eqn:Enum.
  { left. exists ([35; 120] ++ fmt_X r). assert (Hr2 : 0 <= r < 256) by lia.
    split; [apply rb_hex; apply fmt_X_hex; exact Hr2|].
    split; [unfold num_ref; cbn [app]; rewrite <- ?app_assoc; reflexivity|].
    split; [intros rest Hc; rewrite <- app_assoc; apply reference_hex; assumption|].
    split.
    - apply Forall_app; split; [repeat constructor; lia|]. apply fmt_X_ascii; exact Hr2.
    - unfold xml_char. lia. }
  rewrite inrange_xml_char by exact Hv.
  right. destruct (xml_char r) eqn:Hc; cbn [negb orb].
  - destruct ((r =? 65533) && (Datatypes.length bs =? 1)%nat) eqn:Ef.
    + apply andb_true_iff in Ef as [Ef _]. apply Z.eqb_eq in Ef. subst r.
      exists 65533. repeat split; try reflexivity; lia.
    + apply Raw; [reflexivity|]. intros [-> Hl]. rewrite Hl in Ef. discriminate.
  - exists 65533. unfold shown. rewrite Hc. repeat split; try reflexivity; lia.
Qed.

Lemma esc_attr1_cases c :
  chunk_ok c ->
  let r := fst c in
  (exists b, ref_body b /\ esc_attr1 c = 38 :: b ++ [59] /\
     (forall rest, xml_char r = true -> reference (b ++ 59 :: rest) = Some (r, rest)) /\
     Forall (fun x => 0 <= x < 128) b /\ (xml_char r = true \/ 0 <= r < 32))
  \/ (exists r', r' = shown r /\ esc_attr1 c = encode_rune r' /\
        r' <> 38 /\ r' <> 60 /\ r' <> 62 /\ r' <> 34 /\ r' <> 9 /\ r' <> 10 /\ r' <> 13 /\ xml_char r' = true).
Proof.
  destruct c as [r bs]. cbn [fst]. intros (Hv & Hb & Hne & Henc). cbn [fst snd] in *.
  assert (Hr := valid_range r Hv).
  unfold esc_attr1.
  assert (Lit : forall k b, r = k -> ref_body b -> (forall rest, reference (b ++ 59 :: rest) = Some (k, rest)) ->
     Forall (fun x => 0 <= x < 128) b -> xml_char k = true ->
     exists b', ref_body b' /\ 38 :: b ++ [59] = 38 :: b' ++ [59] /\
     (forall rest, xml_char r = true -> reference (b' ++ 59 :: rest) = Some (r, rest)) /\
     Forall (fun x => 0 <= x < 128) b' /\ (xml_char r = true \/ 0 <= r < 32)).
  { intros k b -> H1 H2 H3 H4. exists b. repeat split; try assumption. intros; apply H2. left; exact H4. }
  destruct (r =? 34) eqn:E34.
  { apply Z.eqb_eq in E34. left. apply (Lit 34 (s_ "#34")); try assumption; try reflexivity.
    - apply rb_dec; split; [discriminate|repeat (constructor; [discriminate|]); constructor].
    - repeat constructor; lia. }
  destruct (r =? 38) eqn:E38.
  { apply Z.eqb_eq in E38. left. apply (Lit 38 (s_ "amp")); try assumption; try reflexivity.
    - constructor.
    - repeat constructor; lia. }
  destruct (r =? 60) eqn:E60.
  { apply Z.eqb_eq in E60. left. apply (Lit 60 (s_ "lt")); try assumption; try reflexivity.
    - constructor.
    - repeat constructor; lia. }
  destruct (r =? 62) eqn:E62.
  { apply Z.eqb_eq in E62. left. apply (Lit 62 (s_ "gt")); try assumption; try reflexivity.
    - constructor.
    - repeat constructor; lia. }
  destruct (r =? 10) eqn:E10.
  { apply Z.eqb_eq in E10. left. apply (Lit 10 (s_ "#10")); try assumption; try reflexivity.
    - apply rb_dec; split; [discriminate|repeat (constructor; [discriminate|]); constructor].
    - repeat constructor; lia. }
  destruct (r =? 13) eqn:E13.
  { apply Z.eqb_eq in E13. left. apply (Lit 13 (s_ "#13")); try assumption; try reflexivity.
    - apply rb_dec; split; [discriminate|repeat (constructor; [discriminate|]); constructor].
    - repeat constructor; lia. }
  destruct (r =? 9) eqn:E9.
  { apply Z.eqb_eq in E9. left. apply (Lit 9 (s_ "#9")); try assumption; try reflexivity.
    - apply rb_dec; split; [discriminate|repeat (constructor; [discriminate|]); constructor].
    - repeat constructor; lia. }
  destruct (negb ((32 <=? r) && (r <? 128)) && (r <? 224)) eqn:Enum.
  { left. exists ([35; 120] ++ fmt_X r). assert (Hr2 : 0 <= r < 256) by lia.
    split; [apply rb_hex; apply fmt_X_hex; exact Hr2|].
    split; [unfold num_ref; cbn [app]; rewrite <- ?app_assoc; reflexivity|].
    split; [intros rest Hc; rewrite <- app_assoc; apply reference_hex; assumption|].
    split.
    - apply Forall_app; split; [repeat constructor; lia|]. apply fmt_X_ascii; exact Hr2.
    - unfold xml_char. lia. }
  rewrite inrange_xml_char by exact Hv.
  right. destruct (xml_char r) eqn:Hc; cbn [negb orb].
  - destruct ((r =? 65533) && (Datatypes.length bs =? 1)%nat) eqn:Ef.
    + apply andb_true_iff in Ef as [Ef _]. apply Z.eqb_eq in Ef. subst r.
      exists 65533. repeat split; try reflexivity; lia.
    + exists r. unfold shown. rewrite Hc.
      destruct Henc as [[He1 He2]|He].
      { exfalso. rewrite He2 in Ef. rewrite He1 in Ef. discriminate. }
      repeat split; try exact He; try exact Hc; lia.
  - exists 65533. unfold shown. rewrite Hc. repeat split; try reflexivity; lia.
Qed.

(* ---- no raw markup ---- *)

Lemma encode_no_raw (F : Z -> Prop) r rest :
  r <> 38 -> (forall b, In b (encode_rune r) -> ~ F b) ->
  no_raw_markup F rest -> no_raw_markup F (encode_rune r ++ rest).
Proof.
  intros H38 HF Hrest.
  assert (Hall : forall b, In b (encode_rune r) -> b <> 38).
  { intros b Hb ->. assert (K := encode_high r 38 Hb). lia. }
  revert HF Hall. induction (encode_rune r) as [|b bs IH]; intros HF Hall; [exact Hrest|].
  cbn [app]. constructor.
  - apply Hall. left; reflexivity.
  - apply HF. left; reflexivity.
  - apply IH; intros x Hx; [apply HF|apply Hall]; right; exact Hx.
Qed.

Definition text_forbidden (c : Z) : Prop := c = 60 \/ c = 62.
Definition attr_forbidden (c : Z) : Prop :=
  c = 60 \/ c = 62 \/ c = 34 \/ c = 9 \/ c = 10 \/ c = 13.

Lemma escapeText_no_raw_markup s nl :
  bytes_ok s -> no_raw_markup text_forbidden (escapeText s nl).
Proof.
  intros Hb. unfold escapeText. assert (H := chunks_ok s Hb).
  induction H as [|c cs Hc Hcs IH]; [constructor|].
  cbn [flat_map]. destruct (esc_text1_cases nl c Hc) as [(b & Hb1 & -> & _)|(r' & _ & -> & H38 & H60 & H62 & _)].
  - cbn [app]. rewrite <- app_assoc. cbn [app]. apply nrm_ref; assumption.
  - apply encode_no_raw; [exact H38| |exact IH].
    intros b0 Hin [->| ->]; apply encode_high in Hin; lia.
Qed.

Lemma escapeAttr_no_raw_markup s :
  bytes_ok s -> no_raw_markup attr_forbidden (escapeAttrValue s).
Proof.
  intros Hb. unfold escapeAttrValue. assert (H := chunks_ok s Hb).
  induction H as [|c cs Hc Hcs IH]; [constructor|].
  cbn [flat_map].
  destruct (esc_attr1_cases c Hc) as [(b & Hb1 & -> & _)|(r' & _ & -> & H38 & H60 & H62 & H34 & H9 & H10 & H13 & _)].
  - cbn [app]. rewrite <- app_assoc. cbn [app]. apply nrm_ref; assumption.
  - apply encode_no_raw; [exact H38| |exact IH].
    unfold attr_forbidden. intros b0 Hin Hf.
    assert (b0 < 128) by lia. apply encode_high in Hin; lia.
Qed.

(* ---- read back ---- *)

Lemma number_shrinks b v : forall s seen acc n r, number b v seen acc s = Some (n, r) -> (List.length r < List.length s)%nat.
Proof.
  induction s as [|c s IH]; intros seen acc n r H; [discriminate|].
  cbn [number] in H. destruct (c =? 59).
  - destruct seen; [|discriminate]. injection H as _ <-. cbn. lia.
  - destruct (v c); [|discriminate]. apply IH in H. cbn [List.length]. lia.
Qed.

Lemma reference_shrinks s x r : reference s = Some (x, r) -> (List.length r < List.length s)%nat.
Proof.
  intros H. unfold reference in H.
  repeat match type of H with
  | match ?l with [] => _ | _ => _ end = _ => destruct l as [|? ?]; try discriminate
  | match ?z with Z0 => _ | _ => _ end = _ => destruct z; try discriminate
  | match ?p with xI _ => _ | _ => _ end = _ => destruct p; try discriminate
  | match ?o with Some _ => _ | None => _ end = _ => destruct o as [[? ?]|] eqn:?; try discriminate
  | (if ?b then _ else _) = _ => destruct b; try discriminate
  | Some _ = Some _ => injection H as <- <-
  | _ => idtac
  end; cbn [List.length]; try lia;
  match goal with E : number _ _ _ _ _ = Some _ |- _ => apply number_shrinks in E; cbn [List.length] in *; lia end.
Qed.

Lemma read_text_fuel_enough n m s :
  (List.length s < n)%nat -> (List.length s < m)%nat -> read_text_fuel n s = read_text_fuel m s.
Proof.
  revert m s; induction n as [|n IH]; intros m s Hn Hm; [lia|].
  destruct m as [|m]; [lia|]. cbn [read_text_fuel].
  destruct s as [|c r]; [reflexivity|]. cbn [List.length] in *.
  destruct (c =? 38).
  - destruct (reference r) as [[x r']|] eqn:E; [|reflexivity].
    apply reference_shrinks in E. f_equal. apply IH; lia.
  - destruct (_ || _); [reflexivity|]. f_equal. apply IH; lia.
Qed.

Lemma read_attr_fuel_enough n m s :
  (List.length s < n)%nat -> (List.length s < m)%nat -> read_attr_fuel n s = read_attr_fuel m s.
Proof.
  revert m s; induction n as [|n IH]; intros m s Hn Hm; [lia|].
  destruct m as [|m]; [lia|]. cbn [read_attr_fuel].
  destruct s as [|c r]; [reflexivity|]. cbn [List.length] in *.
  destruct (c =? 38).
  - destruct (reference r) as [[x r']|] eqn:E; [|reflexivity].
    apply reference_shrinks in E. f_equal. apply IH; lia.
  - destruct (_ || _); [reflexivity|]. destruct (_ || _); f_equal; apply IH; lia.
Qed.

Lemma read_text_ref b x rest :
  reference (b ++ 59 :: rest) = Some (x, rest) ->
  read_text (38 :: b ++ 59 :: rest) = option_map (cons x) (read_text rest).
Proof.
  intros H. unfold read_text.
  assert (S1 : forall n, read_text_fuel (S n) (38 :: b ++ 59 :: rest) = option_map (cons x) (read_text_fuel n rest)).
  { intros n. cbn [read_text_fuel]. rewrite Z.eqb_refl, H. reflexivity. }
  rewrite S1. f_equal. apply read_text_fuel_enough; cbn [List.length]; rewrite ?app_length; cbn [List.length]; lia.
Qed.

Lemma read_attr_ref b x rest :
  reference (b ++ 59 :: rest) = Some (x, rest) ->
  read_attr (38 :: b ++ 59 :: rest) = option_map (cons x) (read_attr rest).
Proof.
  intros H. unfold read_attr.
  assert (S1 : forall n, read_attr_fuel (S n) (38 :: b ++ 59 :: rest) = option_map (cons x) (read_attr_fuel n rest)).
  { intros n. cbn [read_attr_fuel]. rewrite Z.eqb_refl, H. reflexivity. }
  rewrite S1. f_equal. apply read_attr_fuel_enough; cbn [List.length]; rewrite ?app_length; cbn [List.length]; lia.
Qed.

Lemma read_text_char c rest :
  c <> 38 -> c <> 60 -> xml_char c = true ->
  read_text (c :: rest) = option_map (cons c) (read_text rest).
Proof.
  intros H1 H2 H3. unfold read_text.
  assert (S1 : forall n, read_text_fuel (S n) (c :: rest) = option_map (cons c) (read_text_fuel n rest)).
  { intros n. cbn [read_text_fuel].
    destruct (c =? 38) eqn:?; [lia|]. destruct (c =? 60) eqn:?; [lia|]. rewrite H3. reflexivity. }
  apply S1.
Qed.

Lemma read_attr_char c rest :
  c <> 38 -> c <> 60 -> c <> 34 -> c <> 9 -> c <> 10 -> c <> 13 -> xml_char c = true ->
  read_attr (c :: rest) = option_map (cons c) (read_attr rest).
Proof.
  intros H1 H2 H3 H4 H5 H6 H7. unfold read_attr.
  assert (S1 : forall n, read_attr_fuel (S n) (c :: rest) = option_map (cons c) (read_attr_fuel n rest)).
  { intros n. cbn [read_attr_fuel].
    destruct (c =? 38) eqn:?; [lia|]. destruct (c =? 60) eqn:?; [lia|]. destruct (c =? 34) eqn:?; [lia|].
    rewrite H7. cbn [orb negb].
    destruct (c =? 9) eqn:?; [lia|]. destruct (c =? 10) eqn:?; [lia|]. destruct (c =? 13) eqn:?; [lia|].
    reflexivity. }
  apply S1.
Qed.

Lemma xml_char_valid c : xml_char c = true -> valid_rune c = true.
Proof. unfold xml_char, valid_rune. lia. Qed.

Lemma utf8_ascii_app a s :
  Forall (fun x => 0 <= x < 128) a -> runes_of (a ++ s) = a ++ runes_of s.
Proof.
  intros H. rewrite <- (utf8_ascii a H) at 1. apply runes_of_utf8_app.
  eapply Forall_impl; [|exact H]. cbn. unfold valid_rune. lia.
Qed.

(* No control character that XML forbids (the runes that the code writes as a
   reference to an illegal character). *)
Definition no_control (s : str) : Prop :=
  Forall (fun r => 32 <= r \/ r = 9 \/ r = 10 \/ r = 13) (runes_of s).

Lemma read_escapeText s nl :
  bytes_ok s -> no_control s ->
  read_text (runes_of (escapeText s nl)) = Some (map shown (runes_of s)).
Proof.
  intros Hb Hn. unfold escapeText, no_control in *.
  assert (H := chunks_ok s Hb). change (runes_of s) with (map fst (chunks s)) in *. revert Hn.
  generalize dependent (chunks s). clear s Hb. intros l H Hn.
  induction H as [|c cs Hc Hcs IH]; [reflexivity|].
  cbn [map] in Hn. inversion Hn as [|? ? Hn1 Hn2]; subst.
  specialize (IH Hn2). cbn [flat_map map].
  destruct (esc_text1_cases nl c Hc) as [(b & Hb1 & -> & Href & Hascii & Hx)|(r' & Hr' & -> & H38 & H60 & H62 & Hx)].
  - cbn [app]. rewrite <- app_assoc. cbn [app].
    change (38 :: b ++ 59 :: flat_map (esc_text1 nl) cs) with ((38 :: b) ++ [59] ++ flat_map (esc_text1 nl) cs).
    rewrite utf8_ascii_app by (constructor; [lia|exact Hascii]).
    rewrite utf8_ascii_app by (repeat constructor; lia). cbn [app].
    assert (Hxc : xml_char (fst c) = true).
    { destruct Hx as [Hx|Hx]; [exact Hx|]. unfold xml_char. lia. }
    rewrite (read_text_ref b (fst c)) by (apply Href; exact Hxc).
    rewrite IH. cbn. unfold shown. rewrite Hxc. reflexivity.
  - replace (runes_of (encode_rune r' ++ flat_map (esc_text1 nl) cs)) with (r' :: runes_of (flat_map (esc_text1 nl) cs)).
    + rewrite read_text_char by assumption. rewrite IH. cbn. rewrite <- Hr'. reflexivity.
    + symmetry. unfold runes_of. rewrite chunks_encode by (apply xml_char_valid; exact Hx). reflexivity.
Qed.

Lemma read_escapeAttr s :
  bytes_ok s -> no_control s ->
  read_attr (runes_of (escapeAttrValue s)) = Some (map shown (runes_of s)).
Proof.
  intros Hb Hn. unfold escapeAttrValue, no_control in *.
  assert (H := chunks_ok s Hb). change (runes_of s) with (map fst (chunks s)) in *. revert Hn.
  generalize dependent (chunks s). clear s Hb. intros l H Hn.
  induction H as [|c cs Hc Hcs IH]; [reflexivity|].
  cbn [map] in Hn. inversion Hn as [|? ? Hn1 Hn2]; subst.
  specialize (IH Hn2). cbn [flat_map map].
  destruct (esc_attr1_cases c Hc) as [(b & Hb1 & -> & Href & Hascii & Hx)|(r' & Hr' & -> & H38 & H60 & H62 & H34 & H9 & H10 & H13 & Hx)].
  - cbn [app]. rewrite <- app_assoc. cbn [app].
    change (38 :: b ++ 59 :: flat_map esc_attr1 cs) with ((38 :: b) ++ [59] ++ flat_map esc_attr1 cs).
    rewrite utf8_ascii_app by (constructor; [lia|exact Hascii]).
    rewrite utf8_ascii_app by (repeat constructor; lia). cbn [app].
    assert (Hxc : xml_char (fst c) = true).
    { destruct Hx as [Hx|Hx]; [exact Hx|]. unfold xml_char. lia. }
    rewrite (read_attr_ref b (fst c)) by (apply Href; exact Hxc).
    rewrite IH. cbn. unfold shown. rewrite Hxc. reflexivity.
  - replace (runes_of (encode_rune r' ++ flat_map esc_attr1 cs)) with (r' :: runes_of (flat_map esc_attr1 cs)).
    + rewrite read_attr_char by assumption. rewrite IH. cbn. rewrite <- Hr'. reflexivity.
    + symmetry. unfold runes_of. rewrite chunks_encode by (apply xml_char_valid; exact Hx). reflexivity.
Qed.

(* For well-formed text (every character legal) the text itself comes back. *)
Lemma map_shown_id rs : Forall (fun r => xml_char r = true) rs -> map shown rs = rs.
Proof.
  induction 1 as [|r rs Hr Hrs IH]; [reflexivity|]. cbn. unfold shown at 1. rewrite Hr, IH. reflexivity.
Qed.

(* ---- quoted literals ---- *)

Lemma has_byte_false c s : has_byte c s = false <-> ~ In c s.
Proof.
  unfold has_byte. induction s as [|b s IH]; cbn; [split; [tauto|reflexivity]|].
  rewrite orb_false_iff, IH, Z.eqb_neq. tauto.
Qed.

Lemma quoted_ok s :
  ~ (In 34 s /\ In 39 s) ->
  exists q, (q = 34 \/ q = 39) /\ ~ In q s /\ dumpQuotedString s = [q] ++ s ++ [q].
Proof.
  intros H. unfold dumpQuotedString.
  destruct (has_byte 34 s) eqn:E1; cbn [negb].
  - destruct (has_byte 39 s) eqn:E2; cbn [negb].
    + exfalso. apply H. split.
      * destruct (in_dec Z.eq_dec 34 s) as [K|K]; [exact K|]. apply has_byte_false in K. congruence.
      * destruct (in_dec Z.eq_dec 39 s) as [K|K]; [exact K|]. apply has_byte_false in K. congruence.
    + exists 39. split; [right; reflexivity|]. split; [apply has_byte_false; exact E2|reflexivity].
  - exists 34. split; [left; reflexivity|]. split; [apply has_byte_false; exact E1|reflexivity].
Qed.

Lemma entity_content_plain s :
  ~ In 37 s -> ~ (In 34 s /\ In 39 s) ->
  exists q, (q = 34 \/ q = 39) /\ ~ In q s /\ dumpEntityContent s = [q] ++ s ++ [q].
Proof.
  intros H1 H2. unfold dumpEntityContent. apply has_byte_false in H1. rewrite H1. cbn [negb].
  apply quoted_ok. exact H2.
Qed.

Lemma literal_body_id s : ~ In 38 s -> literal_body s s.
Proof.
  induction s as [|c s IH]; intros H; constructor.
  - intros ->. apply H. left; reflexivity.
  - apply IH. intro K. apply H. right; exact K.
Qed.

Lemma entity_content_reads s :
  ~ In 38 s -> (In 37 s \/ ~ (In 34 s /\ In 39 s)) ->
  exists q body, (q = 34 \/ q = 39) /\ ~ In q body /\
    dumpEntityContent s = [q] ++ body ++ [q] /\ literal_body body s.
Proof.
  intros H38 H. destruct (in_dec Z.eq_dec 37 s) as [Hp|Hp].
  - unfold dumpEntityContent. destruct (has_byte 37 s) eqn:E; [|apply has_byte_false in E; contradiction].
    cbn [negb]. eexists 34, _. split; [left; reflexivity|]. split; [|split; [reflexivity|]].
    + clear. induction s as [|b s IH]; [intros []|]. cbn [flat_map]. intros K. apply in_app_or in K as [K|K]; [|exact (IH K)].
      destruct (b =? 34) eqn:E1; [vm_compute in K; repeat (destruct K as [K|K]; [discriminate|]); destruct K|].
      destruct (b =? 37) eqn:E2; [vm_compute in K; repeat (destruct K as [K|K]; [discriminate|]); destruct K|].
      destruct K as [K|[]]. lia.
    + clear H Hp E. induction s as [|b s IH]; [constructor|]. cbn [flat_map].
      assert (Hs : ~ In 38 s) by (intro K; apply H38; right; exact K). specialize (IH Hs).
      destruct (b =? 34) eqn:E1; [apply Z.eqb_eq in E1; subst; apply lb_quot; exact IH|].
      destruct (b =? 37) eqn:E2; [apply Z.eqb_eq in E2; subst; apply lb_pct; exact IH|].
      cbn [app]. apply lb_char; [intros ->; apply H38; left; reflexivity|exact IH].
  - destruct H as [H|H]; [contradiction|]. destruct (entity_content_plain s Hp H) as (q & Hq & Hn & ->).
    exists q, s. repeat split; try assumption. apply literal_body_id. exact H38.
Qed.
