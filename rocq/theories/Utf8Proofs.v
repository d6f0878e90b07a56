From Verif Require Import Base Utf8.
Ltac Zify.zify_post_hook ::= Z.div_mod_to_equations.

Ltac bool_split :=
  repeat match goal with
  | H : (_ && _)%bool = true |- _ => apply andb_true_iff in H as [? ?]
  | H : (_ || _)%bool = false |- _ => apply orb_false_iff in H as [? ?]
  | H : (_ <=? _) = true |- _ => apply Z.leb_le in H
  | H : (_ <? _) = true |- _ => apply Z.ltb_lt in H
  | H : (_ =? _) = true |- _ => apply Z.eqb_eq in H
  | H : (_ <=? _) = false |- _ => apply Z.leb_gt in H
  | H : (_ <? _) = false |- _ => apply Z.ltb_ge in H
  | H : (_ =? _) = false |- _ => apply Z.eqb_neq in H
  end.

(* The width is between 1 and the length for non-empty input. *)
Lemma decode_rune_width s :
  s <> [] -> (1 <= snd (decode_rune s) <= List.length s)%nat.
Proof.
  destruct s as [|b0 t]; [congruence|]. intros _. cbn [decode_rune].
  destruct (b0 <? 128); [cbn; lia|].
  destruct ((194 <=? b0) && (b0 <=? 223)).
  { destruct t as [|b1 t]; [cbn; lia|]. destruct (cont b1); cbn; lia. }
  destruct ((224 <=? b0) && (b0 <=? 239)).
  { destruct t as [|b1 [|b2 t]]; try (cbn; lia). destruct (ok3 b0 b1 && cont b2); cbn; lia. }
  destruct ((240 <=? b0) && (b0 <=? 244)).
  { destruct t as [|b1 [|b2 [|b3 t]]]; try (cbn; lia).
    destruct (ok4 b0 b1 && cont b2 && cont b3); cbn; lia. }
  cbn; lia.
Qed.

Lemma chunks_fuel_enough n m s :
  (List.length s <= n)%nat -> (List.length s <= m)%nat -> chunks_fuel n s = chunks_fuel m s.
Proof.
  revert m s; induction n as [|n IH]; intros m s Hn Hm.
  - destruct s; [|cbn in Hn; lia]. destruct m; reflexivity.
  - destruct s as [|b t]; [destruct m; reflexivity|].
    destruct m as [|m]; [cbn in Hm; lia|].
    cbn [chunks_fuel]. destruct (decode_rune (b :: t)) as [r w] eqn:E.
    assert (Hw := decode_rune_width (b :: t)). rewrite E in Hw. cbn [snd] in Hw.
    f_equal. apply IH; rewrite skipn_length; cbn [List.length] in *; specialize (Hw ltac:(congruence)); lia.
Qed.

Lemma chunks_nil : chunks [] = [].
Proof. reflexivity. Qed.

Lemma chunks_unfold s :
  s <> [] ->
  chunks s = (fst (decode_rune s), firstn (snd (decode_rune s)) s) :: chunks (skipn (snd (decode_rune s)) s).
Proof.
  intros Hs. unfold chunks at 1.
  destruct s as [|b t]; [congruence|]. cbn [List.length chunks_fuel].
  assert (Hw := decode_rune_width (b :: t) Hs).
  destruct (decode_rune (b :: t)) as [r w] eqn:E. cbn [fst snd] in *. f_equal.
  apply chunks_fuel_enough; [|lia]. rewrite skipn_length. cbn [List.length] in *. lia.
Qed.

(* Induction principle following the decoding loop. *)
Lemma chunks_ind (P : str -> Prop) :
  P [] ->
  (forall s, s <> [] -> P (skipn (snd (decode_rune s)) s) -> P s) ->
  forall s, P s.
Proof.
  intros H0 H1 s.
  remember (List.length s) as n eqn:Hn.
  revert s Hn; induction n as [n IH] using lt_wf_ind; intros s Hn.
  destruct s as [|b t]; [exact H0|].
  apply H1; [congruence|].
  assert (Hw := decode_rune_width (b :: t) ltac:(congruence)).
  apply (IH (List.length (skipn (snd (decode_rune (b :: t))) (b :: t)))); [|reflexivity].
  rewrite skipn_length. lia.
Qed.

(* The chunks cover the input: nothing is skipped or read twice. *)
Lemma chunks_cover s : concat (map snd (chunks s)) = s.
Proof.
  induction s as [|s Hs IH] using chunks_ind; [reflexivity|].
  rewrite chunks_unfold by assumption. cbn [map concat snd].
  rewrite IH. apply firstn_skipn.
Qed.

(* A decoded rune is a valid one, or U+FFFD standing for an invalid byte. *)
Lemma decode_rune_valid s :
  bytes_ok s -> s <> [] -> valid_rune (fst (decode_rune s)) = true.
Proof.
  intros Hb Hs. destruct s as [|b0 t]; [congruence|].
  inversion Hb as [|? ? Hb0 Ht]; subst. unfold is_byte in Hb0.
  cbn [decode_rune]. unfold valid_rune.
  destruct (b0 <? 128) eqn:E0; [cbn [fst]; bool_split; lia|].
  destruct ((194 <=? b0) && (b0 <=? 223)) eqn:E1.
  { destruct t as [|b1 t]; [reflexivity|]. destruct (cont b1) eqn:C1; [|reflexivity].
    unfold cont in *. cbn [fst]. bool_split. lia. }
  destruct ((224 <=? b0) && (b0 <=? 239)) eqn:E2.
  { destruct t as [|b1 [|b2 t]]; try reflexivity.
    destruct (ok3 b0 b1 && cont b2) eqn:C1; [|reflexivity].
    unfold ok3, cont in *. cbn [fst].
    destruct (b0 =? 224) eqn:?; [bool_split; lia|].
    destruct (b0 =? 237) eqn:?; bool_split; lia. }
  destruct ((240 <=? b0) && (b0 <=? 244)) eqn:E3.
  { destruct t as [|b1 [|b2 [|b3 t]]]; try reflexivity.
    destruct (ok4 b0 b1 && cont b2 && cont b3) eqn:C1; [|reflexivity].
    unfold ok4, cont in *. cbn [fst].
    destruct (b0 =? 240) eqn:?; [bool_split; lia|].
    destruct (b0 =? 244) eqn:?; bool_split; lia. }
  reflexivity.
Qed.

(* Decoding what was encoded. *)
Lemma decode_encode_raw r rest :
  valid_rune r = true ->
  decode_rune (enc_raw r ++ rest) = (r, List.length (enc_raw r)).
Proof.
  intros Hv. unfold valid_rune in Hv. unfold enc_raw.
  destruct (r <? 128) eqn:E1.
  { cbn [app decode_rune]. rewrite E1. reflexivity. }
  destruct (r <? 2048) eqn:E2.
  { cbn [app decode_rune List.length].
    destruct (192 + r / 64 <? 128) eqn:?; [bool_split; lia|].
    destruct ((194 <=? 192 + r / 64) && (192 + r / 64 <=? 223)) eqn:?; [|lia].
    unfold cont. destruct ((128 <=? 128 + r mod 64) && (128 + r mod 64 <=? 191)) eqn:?; [|lia].
    f_equal; lia. }
  destruct (r <? 65536) eqn:E3.
  { cbn [app decode_rune List.length].
    destruct (224 + r / 4096 <? 128) eqn:?; [bool_split; lia|].
    destruct ((194 <=? 224 + r / 4096) && (224 + r / 4096 <=? 223)) eqn:?; [lia|].
    destruct ((224 <=? 224 + r / 4096) && (224 + r / 4096 <=? 239)) eqn:?; [|lia].
    assert (H1 : ok3 (224 + r / 4096) (128 + (r / 64) mod 64) = true).
    { unfold ok3, cont. destruct (224 + r / 4096 =? 224) eqn:?; [lia|].
      destruct (224 + r / 4096 =? 237) eqn:?; lia. }
    rewrite H1. unfold cont.
    destruct ((128 <=? 128 + r mod 64) && (128 + r mod 64 <=? 191)) eqn:?; [|lia].
    cbn [andb]. f_equal; lia. }
  cbn [app decode_rune List.length].
  destruct (240 + r / 262144 <? 128) eqn:?; [bool_split; lia|].
  destruct ((194 <=? 240 + r / 262144) && (240 + r / 262144 <=? 223)) eqn:?; [lia|].
  destruct ((224 <=? 240 + r / 262144) && (240 + r / 262144 <=? 239)) eqn:?; [lia|].
  destruct ((240 <=? 240 + r / 262144) && (240 + r / 262144 <=? 244)) eqn:?; [|lia].
  assert (H1 : ok4 (240 + r / 262144) (128 + (r / 4096) mod 64) = true).
  { unfold ok4, cont. destruct (240 + r / 262144 =? 240) eqn:?; [lia|].
    destruct (240 + r / 262144 =? 244) eqn:?; lia. }
  rewrite H1. unfold cont.
  destruct ((128 <=? 128 + (r / 64) mod 64) && (128 + (r / 64) mod 64 <=? 191)) eqn:?; [|lia].
  destruct ((128 <=? 128 + r mod 64) && (128 + r mod 64 <=? 191)) eqn:?; [|lia].
  cbn [andb]. f_equal; lia.
Qed.

Lemma valid_RuneError : valid_rune RuneError = true.
Proof. reflexivity. Qed.

Lemma encode_invalid r : valid_rune r = false -> encode_rune r = encode_rune RuneError.
Proof. intros H. unfold encode_rune. rewrite H. reflexivity. Qed.

Lemma encode_nonempty r : encode_rune r <> [].
Proof.
  unfold encode_rune, enc_raw. destruct (valid_rune r); [|discriminate].
  destruct (r <? 128); [discriminate|]. destruct (r <? 2048); [discriminate|].
  destruct (r <? 65536); discriminate.
Qed.

Lemma decode_encode r rest :
  valid_rune r = true ->
  decode_rune (encode_rune r ++ rest) = (r, List.length (encode_rune r)).
Proof. intros H. unfold encode_rune. rewrite H. apply decode_encode_raw. exact H. Qed.

Lemma chunks_encode r rest :
  valid_rune r = true ->
  chunks (encode_rune r ++ rest) = (r, encode_rune r) :: chunks rest.
Proof.
  intros H. rewrite chunks_unfold.
  2:{ intro E. apply app_eq_nil in E as [E _]. exact (encode_nonempty r E). }
  rewrite decode_encode by exact H. cbn [fst snd].
  rewrite firstn_app, Nat.sub_diag, firstn_all, app_nil_r.
  rewrite skipn_app, Nat.sub_diag, skipn_all. reflexivity.
Qed.

Lemma chunks_utf8_app rs rest :
  Forall (fun r => valid_rune r = true) rs ->
  chunks (utf8 rs ++ rest) = map (fun r => (r, encode_rune r)) rs ++ chunks rest.
Proof.
  induction 1 as [|r rs Hr Hrs IH]; [reflexivity|].
  cbn [utf8 flat_map map app]. rewrite <- app_assoc. rewrite chunks_encode by exact Hr.
  f_equal. exact IH.
Qed.

Lemma runes_of_utf8 rs :
  Forall (fun r => valid_rune r = true) rs -> runes_of (utf8 rs) = rs.
Proof.
  intros H. unfold runes_of. rewrite <- (app_nil_r (utf8 rs)).
  rewrite chunks_utf8_app by exact H. rewrite app_nil_r, map_map.
  apply map_id.
Qed.

Lemma runes_of_utf8_app rs s :
  Forall (fun r => valid_rune r = true) rs -> runes_of (utf8 rs ++ s) = rs ++ runes_of s.
Proof.
  intros H. unfold runes_of. rewrite chunks_utf8_app by exact H.
  rewrite map_app, map_map. cbn [fst]. rewrite map_id. reflexivity.
Qed.

(* A chunk that is not an invalid byte is the encoding of its rune. *)
Lemma decode_rune_encode s :
  bytes_ok s -> s <> [] ->
  (fst (decode_rune s) = RuneError /\ snd (decode_rune s) = 1%nat) \/
  firstn (snd (decode_rune s)) s = encode_rune (fst (decode_rune s)).
Proof.
  intros Hb Hs. assert (Hv := decode_rune_valid s Hb Hs).
  destruct s as [|b0 t]; [congruence|].
  inversion Hb as [|? ? Hb0 Ht]; subst. unfold is_byte in Hb0.
  unfold encode_rune. rewrite Hv. clear Hv. cbn [decode_rune].
  destruct (b0 <? 128) eqn:E0.
  { right. cbn [fst snd firstn]. unfold enc_raw. rewrite E0. reflexivity. }
  destruct ((194 <=? b0) && (b0 <=? 223)) eqn:E1.
  { destruct t as [|b1 t]; [left; split; reflexivity|].
    destruct (cont b1) eqn:C1; [|left; split; reflexivity].
    right. unfold cont in *. cbn [fst snd firstn]. bool_split. unfold enc_raw.
    destruct (_ <? 128) eqn:?; [lia|]. destruct (_ <? 2048) eqn:?; [|lia].
    f_equal; [lia|]. f_equal. lia. }
  destruct ((224 <=? b0) && (b0 <=? 239)) eqn:E2.
  { destruct t as [|b1 [|b2 t]]; try (left; split; reflexivity).
    destruct (ok3 b0 b1 && cont b2) eqn:C1; [|left; split; reflexivity].
    right. apply andb_true_iff in C1 as [C1 C2].
    assert (Hc : cont b1 = true /\ (b0 = 224 -> 160 <= b1)).
    { unfold ok3, cont in *. destruct (b0 =? 224) eqn:?; [bool_split; lia|].
      destruct (b0 =? 237) eqn:?; bool_split; lia. }
    clear C1. destruct Hc as [C1 Hc]. unfold cont in *. cbn [fst snd firstn]. bool_split.
    unfold enc_raw.
    destruct (_ <? 128) eqn:?; [lia|]. destruct (_ <? 2048) eqn:?; [lia|].
    destruct (_ <? 65536) eqn:?; [|lia].
    f_equal; [lia|]. f_equal; [lia|]. f_equal. lia. }
  destruct ((240 <=? b0) && (b0 <=? 244)) eqn:E3; [|left; split; reflexivity].
  destruct t as [|b1 [|b2 [|b3 t]]]; try (left; split; reflexivity).
  destruct (ok4 b0 b1 && cont b2 && cont b3) eqn:C1; [|left; split; reflexivity].
  right. apply andb_true_iff in C1 as [C1 C3]. apply andb_true_iff in C1 as [C1 C2].
  assert (Hc : cont b1 = true /\ (b0 = 240 -> 144 <= b1)).
  { unfold ok4, cont in *. destruct (b0 =? 240) eqn:?; [bool_split; lia|].
    destruct (b0 =? 244) eqn:?; bool_split; lia. }
  clear C1. destruct Hc as [C1 Hc]. unfold cont in *. cbn [fst snd firstn]. bool_split.
  unfold enc_raw.
  destruct (_ <? 128) eqn:?; [lia|]. destruct (_ <? 2048) eqn:?; [lia|].
  destruct (_ <? 65536) eqn:?; [lia|].
  f_equal; [lia|]. f_equal; [lia|]. f_equal; [lia|]. f_equal. lia.
Qed.

(* Encoding yields bytes. *)
Lemma encode_bytes r : bytes_ok (encode_rune r).
Proof.
  unfold encode_rune. destruct (valid_rune r) eqn:Hv.
  2:{ repeat constructor; unfold is_byte; lia. }
  unfold valid_rune in Hv. unfold enc_raw.
  destruct (r <? 128) eqn:?; [repeat constructor; unfold is_byte; lia|].
  destruct (r <? 2048) eqn:?; [repeat constructor; unfold is_byte; lia|].
  destruct (r <? 65536) eqn:?; repeat constructor; unfold is_byte; lia.
Qed.

Lemma utf8_bytes rs : bytes_ok (utf8 rs).
Proof.
  unfold utf8. induction rs as [|r rs IH]; cbn [flat_map]; [constructor|].
  apply Forall_app; split; [apply encode_bytes|exact IH].
Qed.

Lemma utf8_app a b : utf8 (a ++ b) = utf8 a ++ utf8 b.
Proof. apply flat_map_app. Qed.

Lemma bytes_ok_skipn n s : bytes_ok s -> bytes_ok (skipn n s).
Proof.
  intros H. rewrite <- (firstn_skipn n s) in H. apply Forall_app in H. apply H.
Qed.

Lemma bytes_ok_firstn n s : bytes_ok s -> bytes_ok (firstn n s).
Proof.
  intros H. rewrite <- (firstn_skipn n s) in H. apply Forall_app in H. apply H.
Qed.

(* ASCII bytes *)
Lemma encode_ascii r : 0 <= r < 128 -> encode_rune r = [r].
Proof.
  intros H. unfold encode_rune, valid_rune, enc_raw.
  destruct (_ || _) eqn:E; [|lia]. destruct (r <? 128) eqn:?; [reflexivity|lia].
Qed.

Lemma utf8_ascii s : Forall (fun r => 0 <= r < 128) s -> utf8 s = s.
Proof.
  induction 1 as [|r s Hr Hs IH]; [reflexivity|].
  cbn [utf8 flat_map]. rewrite encode_ascii by exact Hr. cbn [app]. f_equal. exact IH.
Qed.

(* Bytes of a multi-byte sequence are never ASCII. *)
Lemma encode_high r b : In b (encode_rune r) -> b < 128 -> encode_rune r = [b] /\ r = b.
Proof.
  unfold encode_rune. destruct (valid_rune r) eqn:Hv.
  2:{ cbn. lia. }
  unfold valid_rune in Hv. unfold enc_raw.
  destruct (r <? 128) eqn:?.
  { cbn. intros [->|[]] _. split; reflexivity. }
  destruct (r <? 2048) eqn:?; [cbn [In]; lia|].
  destruct (r <? 65536) eqn:?; cbn [In]; lia.
Qed.

(* Decoding then encoding valid text gives the text back. *)
Lemma utf8_inj a b :
  Forall (fun r => valid_rune r = true) a -> Forall (fun r => valid_rune r = true) b ->
  utf8 a = utf8 b -> a = b.
Proof.
  intros Ha Hb H. rewrite <- (runes_of_utf8 a Ha), <- (runes_of_utf8 b Hb), H. reflexivity.
Qed.
