(* Declarations: the parser reads every internal subset of Doctype.v, reports
   its declarations and fills its tables with what they mean. *)
From Coq Require Import Permutation.
From Verif Require Import Heap Dump DtdProofs DtdHistory.
From Verif Require Import Base Utf8 Utf8Proofs Encoding XmlSpec EscapeProofs Scan ScanProofs LexProofs Parser TextProofs Complete.
From Verif Require Import ContentProofs Content Doctype DoctypeAttr DoctypeContent Grammar.
Local Open Scope Z_scope.

(* ---- entity values ---- *)
Lemma number_utf8 : forall base val, (forall c d, val c = Some d -> 0 <= c < 128) -> forall b x t seen acc,
  number base val seen acc b = Some (x, t) -> number base val seen acc (utf8 b) = Some (x, utf8 t).
Proof.
  intros base val Hv. induction b as [|c b IH]; intros x t seen acc Hn; [discriminate|]. cbn [number] in Hn.
  change (utf8 (c :: b)) with (encode_rune c ++ utf8 b). destruct (Z.eqb_spec c 59) as [->|Hc].
  - rewrite encode_ascii by lia. cbn [app number]. rewrite Z.eqb_refl. destruct seen; inversion Hn; subst; reflexivity.
  - destruct (val c) as [d|] eqn:Ed; [|discriminate]. pose proof (Hv _ _ Ed). rewrite encode_ascii by lia. cbn [app number].
    destruct (Z.eqb_spec c 59); [contradiction|]. rewrite Ed. auto.
Qed.
Lemma dec_ascii : forall c d, dec_val c = Some d -> 0 <= c < 128.
Proof. unfold dec_val. intros c d. destruct ((48 <=? c) && (c <=? 57)) eqn:G; [intros; lia|discriminate]. Qed.
Lemma hex_ascii : forall c d, hex_val c = Some d -> 0 <= c < 128.
Proof.
  unfold hex_val; intros c d. destruct ((48 <=? c) && (c <=? 57)) eqn:G1; [intros; lia|].
  destruct ((65 <=? c) && (c <=? 70)) eqn:G2; [intros; lia|]. destruct ((97 <=? c) && (c <=? 102)) eqn:G3; [intros; lia|discriminate].
Qed.
(* bytes that are neither '&' nor '%' are copied *)
Lemma decode_copy : forall bs r n, Forall (fun b => b <> 38 /\ b <> 37) bs ->
  decodeEntities_fuel (List.length bs + n) (bs ++ r) =
    match decodeEntities_fuel n r with Ret v => Ret (bs ++ v) | o => o end.
Proof.
  induction bs as [|b bs IH]; intros r n Hb.
  - cbn [app List.length Nat.add]. destruct (decodeEntities_fuel n r); reflexivity.
  - inversion Hb as [|? ? [B1 B2] Hbs]; subst. cbn [app List.length Nat.add decodeEntities_fuel].
    replace (has_prefix (s_ "&#") (b :: bs ++ r)) with false by (cbn; destruct b; auto; do 6 (try destruct p; auto); exfalso; auto).
    destruct (Z.eqb_spec b 37); [contradiction|]. rewrite IH by auto. destruct (decodeEntities_fuel n r); reflexivity.
Qed.
Lemma decode_more : forall n r v, decodeEntities_fuel n r = Ret v -> forall m, (n <= m)%nat -> decodeEntities_fuel m r = Ret v.
Proof.
  induction n as [|n IH]; intros r v Hd m Hm.
  - cbn in Hd. destruct r; [|discriminate]. destruct m; auto.
  - destruct m as [|m]; [lia|]. cbn [decodeEntities_fuel] in *. destruct r as [|c t]; [auto|].
    destruct (has_prefix (s_ "&#") (c :: t)).
    + destruct (parseStringCharRef (c :: t)) as [[val rest]| | |]; auto.
      destruct (decodeEntities_fuel n rest) as [w| | |] eqn:Dn; try discriminate. rewrite (IH _ _ Dn m) by lia. auto.
    + destruct (c =? 37); [discriminate|]. destruct (decodeEntities_fuel n t) as [w| | |] eqn:Dn; try discriminate.
      rewrite (IH _ _ Dn m) by lia. auto.
Qed.
Lemma scrLoop_shrinks : forall acc l v x rest, scrLoop acc v l = Ret (x, rest) -> (List.length rest <= List.length l)%nat.
Proof.
  intros acc. induction l as [|c l IH]; intros v x rest Hs; cbn [scrLoop] in Hs; [inversion Hs; cbn; lia|].
  cbn [List.length]. destruct (c =? 59); [inversion Hs; subst; lia|]. destruct (acc v c) as [w|]; [|discriminate].
  destruct (1114111 <? w); [discriminate|]. apply IH in Hs. lia.
Qed.
Lemma stringCharRef_shrinks : forall s x rest, parseStringCharRef s = Ret (x, rest) -> (List.length rest < List.length s)%nat.
Proof.
  intros s x rest Hp. unfold parseStringCharRef in Hp. cbv zeta in Hp. destruct (has_prefix (s_ "&#") s) eqn:Hh; [|discriminate].
  cbn [negb] in Hp. destruct s as [|a [|b t]]; try discriminate. cbn [skipn] in Hp. cbn [List.length].
  destruct t as [|c t]; [discriminate|].
  destruct (c =? 120).
  - destruct (scrLoop accHex 0 t) as [[v r]| | |] eqn:L; try discriminate. apply scrLoop_shrinks in L.
    destruct (isChar v); inversion Hp; subst. cbn. lia.
  - destruct (scrLoop accDec 0 (c :: t)) as [[v r]| | |] eqn:L; try discriminate. apply scrLoop_shrinks in L. cbn [List.length] in L.
    destruct (isChar v); inversion Hp; subst. cbn. lia.
Qed.
Section Value.
Variable E : env.
Hypothesis OK : env_ok E.
Lemma encode_plain : forall c, legal c = true -> c <> 38 -> c <> 37 -> Forall (fun b => b <> 38 /\ b <> 37) (encode_rune c).
Proof.
  intros c Hl H1 H2. apply Forall_forall. intros b Hb.
  assert (G : forall a, 0 <= a < 128 -> In a (encode_rune c) -> c = a).
  { intros a Ha Hi. assert (X : In a (utf8 [c])) by (cbn; rewrite app_nil_r; exact Hi).
    apply utf8_In_ascii in X; [|lia]. destruct X as [X|[]]. exact X. }
  split; intros ->; [apply H1|apply H2]; apply G; auto; lia.
Qed.
Lemma utf8_plain : forall l, legals l -> ~ In 38 l -> ~ In 37 l -> Forall (fun b => b <> 38 /\ b <> 37) (utf8 l).
Proof.
  induction l as [|c l IH]; intros Hl H1 H2; [constructor|]. inversion Hl; subst. change (utf8 (c :: l)) with (encode_rune c ++ utf8 l).
  apply Forall_app. split; [apply encode_plain; auto; intros ->; [apply H1|apply H2]; left; auto|].
  apply IH; auto; intro; [apply H1|apply H2]; right; auto.
Qed.
Lemma ncname_plain : forall n, ncname E n -> legals n /\ ~ In 38 n /\ ~ In 37 n /\ hd 0 n <> 35 /\ ~ In 34 n /\ ~ In 39 n.
Proof.
  intros n (Hn & Hl & _). destruct n as [|c r]; [destruct Hn|]. destruct Hn as [Hs Hp].
  assert (Hx : forall x, 0 <= x < 128 -> isAZ x || isD x || (x =? 95) || (x =? 45) || (x =? 46) = false -> ~ In x (c :: r)).
  { intros x Hx Hno [->|Hi].
    - unfold name_start in Hs. rewrite (ok_letter E OK) in Hs by lia. destruct (isAZ x); [discriminate|].
      destruct (Z.eqb_spec x 95); [subst; discriminate|discriminate].
    - rewrite Forall_forall in Hp. specialize (Hp x Hi). unfold name_part in Hp.
      rewrite (ok_letter E OK), (ok_digit E OK) in Hp by lia. destruct (isAZ x), (isD x); cbn [orb] in *; try discriminate; lia. }
  split; [exact Hl|]. repeat split; try (apply Hx; [lia|reflexivity]).
  cbn. intros ->. apply (Hx 35); [lia|reflexivity|left; auto].
Qed.
Lemma entlit_value : forall q lit v, entlit E q lit v -> exists n, decodeEntities_fuel n (utf8 lit) = Ret (utf8 v).
Proof.
  intros q lit v Hl. induction Hl as [|c t v Hc _ H37 H38 _ _ [n IH]|t x t' v Hr Hx _ [n IH]|nm t v Hn _ [n IH]].
  - exists O. reflexivity.
  - exists (List.length (encode_rune c) + n)%nat. change (utf8 (c :: t)) with (encode_rune c ++ utf8 t).
    rewrite decode_copy by (apply encode_plain; auto). rewrite IH. reflexivity.
  - destruct (reference_cases (35 :: t) x t' Hr) as [(hex & b & Ht & Hnum & Hxc)|(nm & Ht & Hp & Hnm)].
    + exists (Datatypes.S n). rewrite Ht, utf8_app.
      assert (Hpre : utf8 (refPrefix hex) = refPrefix hex) by (destruct hex; reflexivity). rewrite Hpre.
      assert (Hnum' : refNumber hex (utf8 b) = Some (x, utf8 t')).
      { destruct hex; cbn [refNumber] in *; apply number_utf8; auto; [exact hex_ascii|exact dec_ascii]. }
      assert (Hp : exists w, refPrefix hex ++ utf8 b = 38 :: w /\ has_prefix (s_ "&#") (38 :: w) = true)
        by (destruct hex; eexists; split; reflexivity).
      destruct Hp as (w & Hw & Hp). cbn [decodeEntities_fuel]. rewrite Hw, Hp, <- Hw.
      rewrite (stringCharRef_value hex _ _ _ Hnum'). rewrite isChar_spec. fold (xml_char x). rewrite Hxc.
      destruct (Z.eqb_spec x RuneError) as [Hre|_]; [exfalso; apply Hx; exact Hre|]. cbn [negb andb]. rewrite IH. reflexivity.
    + exfalso. cbn [In] in Hnm. destruct Hnm as [<-|[<-|[<-|[<-|[<-|[]]]]]]; discriminate Ht.
  - destruct (ncname_plain nm Hn) as (N1 & N2 & N3 & N4 & _). exists (Datatypes.S (List.length (utf8 nm ++ [59%Z]) + n))%nat.
    change (utf8 (38 :: nm ++ [59] ++ t)) with (encode_rune 38 ++ utf8 (nm ++ [59] ++ t)). rewrite encode_ascii by lia.
    change (utf8 (38 :: nm ++ [59] ++ v)) with (encode_rune 38 ++ utf8 (nm ++ [59] ++ v)). rewrite encode_ascii by lia.
    rewrite !utf8_app. change (utf8 [59]) with [59]. cbn [app decodeEntities_fuel].
    assert (Hh : has_prefix (s_ "&#") (38 :: utf8 nm ++ 59 :: utf8 t) = false).
    { destruct nm as [|a nm]; [destruct Hn as [[] _]|]. change (utf8 (a :: nm)) with (encode_rune a ++ utf8 nm).
      assert (Hf : hd 0 (encode_rune a) <> 35).
      { intros Hh. assert (X : In 35 (utf8 [a])).
        { cbn. rewrite app_nil_r. destruct (encode_rune a) as [|y z]; [discriminate|]. left. exact Hh. }
        apply utf8_In_ascii in X; [|lia]. destruct X as [X|[]]. apply N4. exact X. }
      destruct (encode_rune a) as [|y z] eqn:Ey; [exfalso; revert Ey; apply encode_nonempty|].
      cbn in Hf |- *. destruct y; auto. do 6 (try destruct p; auto). exfalso; auto. }
    rewrite Hh. change (38 =? 37) with false. cbv iota.
    replace (utf8 nm ++ 59 :: utf8 t) with ((utf8 nm ++ [59]) ++ utf8 t) by (rewrite <- app_assoc; reflexivity).
    rewrite decode_copy. 2:{ apply Forall_app. split; [apply utf8_plain; auto|]. constructor; [lia|constructor]. }
    rewrite IH, <- app_assoc. reflexivity.
Qed.
Lemma decode_length : forall n s v, decodeEntities_fuel n s = Ret v -> decodeEntities_fuel (List.length s) s = Ret v.
Proof.
  induction n as [|n IH]; intros s v Hd.
  - destruct s; [exact Hd|discriminate].
  - destruct s as [|c t]; [exact Hd|]. cbn [decodeEntities_fuel List.length] in *.
    destruct (has_prefix (s_ "&#") (c :: t)).
    + destruct (parseStringCharRef (c :: t)) as [[val rest]| | |] eqn:P; try discriminate.
      destruct (decodeEntities_fuel n rest) as [w| | |] eqn:Dn; try discriminate.
      apply stringCharRef_shrinks in P. cbn [List.length] in P. rewrite (decode_more (List.length rest) rest w (IH _ _ Dn)) by lia. exact Hd.
    + destruct (c =? 37); [discriminate|]. destruct (decodeEntities_fuel n t) as [w| | |] eqn:Dn; try discriminate.
      rewrite (IH _ _ Dn). exact Hd.
Qed.
Lemma entlit_chars : forall q lit v, entlit E q lit v -> q = 34 \/ q = 39 ->
  Forall (fun c => isChar c && negb (c =? q) = true) lit /\ legals v.
Proof.
  intros q lit v Hl Hq. induction Hl as [|c t v Hc Hcq _ _ _ _ [IH1 IH2]|t x t' v Hr Hx Hl [IH1 IH2]|nm t v Hn _ [IH1 IH2]].
  - split; constructor.
  - split; constructor; auto. rewrite <- legal_is, Hc. destruct (Z.eqb_spec c q); [contradiction|reflexivity].
  - assert (Hd : exists u, 35 :: t = u ++ t' /\ Forall (fun c => isChar c && negb (c =? q) = true) u).
    { clear IH1 IH2 Hl. destruct (reference_cases (35 :: t) x t' Hr) as [(hex & b & Ht & Hnum & Hxc)|(nm & Ht & Hp & Hnm)].
      - assert (G : forall base val, (forall c d, val c = Some d -> isChar c && negb (c =? q) = true) -> forall b x t' seen acc,
          number base val seen acc b = Some (x, t') -> exists u, b = u ++ t' /\ Forall (fun c => isChar c && negb (c =? q) = true) u).
        { intros base val Hv. induction b0 as [|c b0 IH]; intros y w seen acc Hn; [discriminate|]. cbn [number] in Hn.
          destruct (Z.eqb_spec c 59) as [->|Hc].
          - destruct seen; inversion Hn; subst. exists [59]. split; [reflexivity|]. constructor; [|constructor].
            destruct Hq as [->| ->]; reflexivity.
          - destruct (val c) as [d|] eqn:Ed; [|discriminate]. destruct (IH _ _ _ _ Hn) as (u & -> & Hu). exists (c :: u).
            split; [reflexivity|]. constructor; eauto. }
        assert (V : forall c, 48 <= c <= 122 -> isChar c && negb (c =? q) = true).
        { intros c Hc. apply andb_true_iff. split; [rewrite isChar_spec; unfold xml_char, RuneError; lia|].
          apply negb_true_iff, Z.eqb_neq. lia. }
        destruct hex; cbn [refNumber] in Hnum.
        + apply G in Hnum.
          2:{ intros c d Hd. apply V. unfold hex_val in Hd. destruct ((48 <=? c) && (c <=? 57)) eqn:G1; [lia|].
              destruct ((65 <=? c) && (c <=? 70)) eqn:G2; [lia|]. destruct ((97 <=? c) && (c <=? 102)) eqn:G3; [lia|discriminate]. }
          destruct Hnum as (u & -> & Hu). change (refPrefix true) with [38; 35; 120] in Ht. inversion Ht; subst.
          exists (35 :: 120 :: u). split; [reflexivity|]. constructor; [destruct Hq as [->| ->]; reflexivity|]. constructor; [apply V; lia|auto].
        + apply G in Hnum.
          2:{ intros c d Hd. apply V. unfold dec_val in Hd. destruct ((48 <=? c) && (c <=? 57)) eqn:G1; [lia|discriminate]. }
          destruct Hnum as (u & -> & Hu). change (refPrefix false) with [38; 35] in Ht. inversion Ht; subst.
          exists (35 :: u). split; [reflexivity|]. constructor; [destruct Hq as [->| ->]; reflexivity|auto].
      - exfalso. cbn [In] in Hnm. destruct Hnm as [<-|[<-|[<-|[<-|[<-|[]]]]]]; discriminate Ht. }
    destruct Hd as (u & Hu & Fu). split.
    + constructor; [destruct Hq as [->| ->]; reflexivity|]. rewrite Hu. apply Forall_app. auto.
    + constructor; [|auto]. destruct (reference_cases (35 :: t) x t' Hr) as [(hex & b & Ht & Hnum & Hxc)|(nm & Ht & Hp & Hnm)].
      * rewrite legal_is, isChar_spec, Hxc. apply negb_true_iff, Z.eqb_neq. exact Hx.
      * exfalso. cbn [In] in Hnm. destruct Hnm as [<-|[<-|[<-|[<-|[<-|[]]]]]]; discriminate Ht.
  - destruct (ncname_plain nm Hn) as (N1 & N2 & N3 & N4 & N5 & N6).
    assert (N0 : Forall (fun c => isChar c && negb (c =? q) = true) nm).
    { apply Forall_forall. intros c Hi. unfold legals in N1. rewrite Forall_forall in N1. rewrite <- legal_is, (N1 c Hi).
      destruct (Z.eqb_spec c q) as [->|]; [|reflexivity]. exfalso. destruct Hq as [->| ->]; auto. }
    split.
    + constructor; [destruct Hq as [->| ->]; reflexivity|]. apply Forall_app. split; [auto|].
      constructor; [destruct Hq as [->| ->]; reflexivity|auto].
    + constructor; [reflexivity|]. apply Forall_app. split; [auto|]. constructor; [reflexivity|auto].
Qed.
Lemma entity_value : forall q lit v r, entlit E q lit v -> q = 34 \/ q = 39 ->
  parseEntityValue E ([q] ++ lit ++ [q] ++ r) = (Ret (utf8 lit, utf8 v), r).
Proof.
  intros q lit v r Hl Hq. destruct (entlit_chars q lit v Hl Hq) as [Hc _]. destruct (entlit_value q lit v Hl) as [n Hn].
  unfold parseEntityValue. cbn [app]. rewrite (pbind_eq _ _ _ _ _ q (q :: lit ++ q :: r)) by reflexivity.
  replace ((q =? 34) || (q =? 39)) with true by lia.
  assert (Hf : isChar q && negb (q =? q) = false) by (rewrite Z.eqb_refl; apply andb_false_r).
  erewrite pbind_eq.
  2:{ erewrite pbind_eq by (unfold padvance; rewrite advance_1; reflexivity). erewrite pbind_eq.
      2:{ unfold parseEntityValueInternal. rewrite takeW_app, dropW_app by (auto; exact Hf). reflexivity. }
      erewrite pbind_eq by reflexivity. cbn [peek hd]. rewrite Z.eqb_refl.
      erewrite pbind_eq by (unfold padvance; rewrite advance_1; reflexivity). reflexivity. }
  unfold pbind, pwrap, plift, decodeEntities. rewrite (decode_length _ _ _ Hn). reflexivity.
Qed.
End Value.

(* ---- the tables ---- *)
Notation declaration := ((list Z * list Z) * attdef)%type.
Definition akey (x : declaration) : list Z * list Z := (qname (fst (fst x)) (snd (fst x)), ad_name (snd x)).
Definition elem_of (x : declaration) : str := utf8 (qname (fst (fst x)) (snd (fst x))).
Definition att_of (x : declaration) : str := utf8 (ad_name (snd x)).
Definition special_entry (x : declaration) : str * Z := (special_key (elem_of x) (att_of x), type_code (ad_type (snd x))).
Definition default_entry (x : declaration) : list (str * str * (str * str * str)) :=
  match default_value (ad_type (snd x)) (ad_default (snd x)) with
  | [] => []
  | v => [(elem_of x, att_of x, (att_of x, [], v))]
  end.

Section P.
Variable E : env.
Hypothesis OK : env_ok E.
Variable S : Type.
Variable H : handler S.
Variable known : S -> str -> option str.
Hypothesis R : remembers H known.
Notation st := (Complete.st S).
Notation HT := (S * list (event * hres))%type.
Notation went := (went E S H known).

Definition with_decls (xs : list declaration) (z : pst S) : pst S :=
  set_special S (rev (map special_entry xs)) (set_default S (flat_map default_entry xs) z).
Definition good (x : declaration) : Prop := dname E (fst (fst x)) (snd (fst x)) /\ ncname E (ad_name (snd x)).

Lemma att_no_colon : forall x, good x -> ~ In 58 (att_of x).
Proof. intros x [_ Hx] Hi. apply utf8_In_ascii in Hi; [|lia]. revert Hi. apply (ncname_no58 E OK), Hx. Qed.
Lemma last_colon : forall (a b c d : str), ~ In 58 b -> ~ In 58 d -> a ++ [58] ++ b = c ++ [58] ++ d -> a = c /\ b = d.
Proof.
  intros a b c d Hb Hd Heq. assert (Hr : rev b ++ 58 :: rev a = rev d ++ 58 :: rev c).
  { apply (f_equal (@rev Z)) in Heq. rewrite !rev_app_distr in Heq. cbn [rev app] in Heq. rewrite <- !app_assoc in Heq. exact Heq. }
  apply app_first_inj in Hr as [H1 H2]; [|rewrite <- in_rev; auto|rewrite <- in_rev; auto].
  split; [apply (f_equal (@rev Z)) in H2; rewrite !rev_involutive in H2; auto|].
  apply (f_equal (@rev Z)) in H1. rewrite !rev_involutive in H1. auto.
Qed.
Lemma dname_valid : forall p l, dname E p l -> Forall (fun r => valid_rune r = true) (qname p l).
Proof.
  intros p l [[Hp Hl] _]. assert (G : forall n, ncname E n -> Forall (fun r => valid_rune r = true) n).
  { intros n (_ & Hn & _). unfold legals in Hn. eapply Forall_impl; [|exact Hn]. intros c Hc. apply legal_valid. exact Hc. }
  destruct p as [|c p]; [apply G, Hl|]. destruct Hp as [Hp|Hp]; [discriminate|]. unfold qname. apply Forall_app. split; [apply G, Hp|].
  constructor; [reflexivity|apply G, Hl].
Qed.
Lemma att_valid : forall n, ncname E n -> Forall (fun r => valid_rune r = true) n.
Proof. intros n (_ & Hn & _). unfold legals in Hn. eapply Forall_impl; [|exact Hn]. intros c Hc. apply legal_valid. exact Hc. Qed.
Lemma names_same : forall x y, good x -> good y -> elem_of x = elem_of y -> att_of x = att_of y -> akey x = akey y.
Proof.
  intros x y [X1 X2] [Y1 Y2] He Ha. unfold akey. f_equal.
  - apply utf8_inj in He; auto using dname_valid.
  - apply utf8_inj in Ha; auto using att_valid.
Qed.
Lemma key_same : forall x y, good x -> good y -> fst (special_entry x) = fst (special_entry y) -> akey x = akey y.
Proof.
  intros x y Gx Gy Hk. cbn [special_entry fst] in Hk. unfold special_key in Hk.
  apply last_colon in Hk as [H1 H2]; [|apply att_no_colon; auto|apply att_no_colon; auto]. apply names_same; auto.
Qed.
Lemma lookup_none : forall (l : list (str * Z)) k, ~ In k (map fst l) -> lookupSpecial l k = None.
Proof.
  intros l k Hk. unfold lookupSpecial. destruct (find (fun p => str_eqb (fst p) k) l) as [[a b]|] eqn:F; [|reflexivity].
  apply find_some in F as [F1 F2]. cbn in F2. destruct (str_eqb_spec a k) as [->|]; [|discriminate]. exfalso. apply Hk.
  apply in_map_iff. exists (k, b). auto.
Qed.
Lemma fresh_lookup : forall xs x, Forall good xs -> good x -> NoDup (map akey (xs ++ [x])) ->
  lookupSpecial (rev (map special_entry xs)) (special_key (elem_of x) (att_of x)) = None.
Proof.
  intros xs x Gxs Gx Hnd. apply lookup_none. intros Hi. rewrite map_rev, <- in_rev, map_map in Hi. apply in_map_iff in Hi.
  destruct Hi as (y & Hy & Hin). rewrite Forall_forall in Gxs. rewrite map_app in Hnd. cbn [map] in Hnd.
  apply (NoDup_remove_2 (map akey xs) [] (akey x)) in Hnd. apply Hnd. rewrite app_nil_r.
  rewrite <- (key_same y x (Gxs y Hin) Gx Hy). apply in_map. exact Hin.
Qed.
Lemma put_new : forall (l : list (str * Z)) k t, lookupSpecial l k = None -> putSpecial k t l = (k, t) :: l.
Proof.
  intros l k t Hl. unfold putSpecial. f_equal. induction l as [|[a b] l IH]; [reflexivity|]. unfold lookupSpecial in Hl. cbn [find fst] in Hl. cbn [filter fst].
  destruct (str_eqb a k); [discriminate|]. cbn [negb]. f_equal. apply IH. exact Hl.
Qed.
Lemma fresh_filter : forall xs x, Forall good xs -> good x -> NoDup (map akey (xs ++ [x])) ->
  filter (fun p : str * str * (str * str * str) => negb (str_eqb (fst (fst p)) (elem_of x) && str_eqb (snd (fst p)) (att_of x)))
    (flat_map default_entry xs) = flat_map default_entry xs.
Proof.
  intros xs x Gxs Gx Hnd. rewrite map_app in Hnd. cbn [map] in Hnd. apply (NoDup_remove_2 (map akey xs) [] (akey x)) in Hnd. rewrite app_nil_r in Hnd.
  induction xs as [|y xs IH]; [reflexivity|]. inversion Gxs; subst. cbn [flat_map]. rewrite filter_app, IH; auto.
  2:{ intro; apply Hnd; right; auto. }
  f_equal. unfold default_entry. destruct (default_value (ad_type (snd y)) (ad_default (snd y))) as [|v0 v]; [reflexivity|]. cbn [filter fst snd].
  destruct (str_eqb_spec (elem_of y) (elem_of x)) as [He|]; [|reflexivity].
  destruct (str_eqb_spec (att_of y) (att_of x)) as [Ha|]; [|reflexivity]. exfalso. apply Hnd. left. apply names_same; auto.
Qed.

(* ---- attribute definitions ---- *)
Lemma blank_cases : forall c, blank c = true -> c = 32 \/ c = 9 \/ c = 13 \/ c = 10.
Proof. unfold blank. intros. lia. Qed.
Lemma attribute_type : forall t b r n, b <> [] -> blanks b ->
  parseAttributeType E n (keyword t ++ b ++ r) = (Ret (type_code t, []), b ++ r).
Proof.
  intros t [|c b] r n Hb1 Hb2; [congruence|]. inversion Hb2 as [|? ? Hc _]; subst. unfold parseAttributeType. cbn [app].
  destruct (blank_cases c Hc) as [->|[->|[->| ->]]]; destruct t; reflexivity.
Qed.
Definition raw (d : adefault) : str := match d with Fixed v | Default v => v | _ => [] end.
Lemma quote_start : forall q, q = 34 \/ q = 39 -> forall l w, has_prefix (35 :: w) (q :: l) = false.
Proof. intros q [->| ->]; reflexivity. Qed.
Lemma quoted_default : forall q lit v n r tab nd ht s, attlit q lit v -> q = 34 \/ q = 39 -> (List.length lit < n)%nat -> forall k,
  bind S (mpeek E S) (fun q =>
      if negb ((q =? 34) || (q =? 39)) then failw S "string not started"
      else bind S (madvance E S 1) (fun _ =>
        bind S (wrap S (parseAttributeValueInternal E S H n q false)) (fun v =>
        bind S (mpeek E S) (fun c =>
        if negb (c =? q) then failw S "string not closed"
        else bind S (madvance E S 1) (fun _ => ret S (k, fst v)))))) (st ([q] ++ lit ++ [q] ++ r) tab nd ht s)
   = (Ret (k : Z, v), st r tab nd ht s).
Proof.
  intros q lit v n r tab nd ht s Hlit Hq Hn k. cbn [app]. erewrite bind_ret by apply mpeek_st.
  replace ((q =? 34) || (q =? 39)) with true by lia. cbn [negb]. erewrite bind_ret by apply madv1_st.
  destruct (attlit_st E OK S H q lit v Hlit Hq n [] false 0 r tab nd ht s Hn) as [en Hen].
  erewrite bind_ret by (apply wrap_ret; exact Hen). erewrite bind_ret by apply mpeek_st. rewrite Z.eqb_refl. cbn [negb].
  erewrite bind_ret by apply madv1_st. reflexivity.
Qed.
Lemma default_decl : forall d t r n tab nd ht s, default_text d t -> (List.length t <= n)%nat ->
  parseDefaultDecl E S H n (st (t ++ r) tab nd ht s) = (Ret (default_code d, raw d), st r tab nd ht s).
Proof.
  intros d t r n tab nd ht s Hd Hn. unfold parseDefaultDecl. destruct Hd as [| |b q lit v Hb1 Hb2 Hq Hlit|q lit v Hq Hlit].
  - erewrite bind_ret by apply mconsume_st. reflexivity.
  - erewrite bind_ret by (apply mconsume_not_st; reflexivity). cbv beta iota. erewrite bind_ret by apply mconsume_st. reflexivity.
  - rewrite !app_length in Hn. lens. rewrite <- !app_assoc.
    erewrite bind_ret by (apply mconsume_not_st; reflexivity). cbv beta iota.
    erewrite bind_ret by (apply mconsume_not_st; reflexivity). cbv beta iota.
    erewrite bind_ret by apply mconsume_st. cbv beta iota.
    erewrite bind_ret.
    2:{ destruct b as [|c b]; [congruence|]. inversion Hb2; subst. erewrite bind_ret by (eapply (mpeek_eq E S _ c); reflexivity).
        rewrite <- blank_is. rewrite H2. cbn [negb].
        erewrite bind_ret by (apply (mskip_st S (c :: b)); [auto|apply quote_not_blank; auto]). reflexivity. }
    apply quoted_default; auto. lia.
  - rewrite !app_length in Hn. lens. rewrite <- !app_assoc.
    erewrite bind_ret by (apply mconsume_not_st; apply quote_start; auto). cbv beta iota.
    erewrite bind_ret by (apply mconsume_not_st; apply quote_start; auto). cbv beta iota.
    erewrite bind_ret by (apply mconsume_not_st; apply quote_start; auto). cbv beta iota.
    erewrite bind_ret by reflexivity. apply quoted_default; auto. lia.
Qed.
Lemma default_norm : forall t d s, default_fits t d ->
  (if negb (type_code t =? AttrCDATA) && negb (default_code d =? DefInvalid)
   then mlift S (attrNormalizeSpace (raw d)) else ret S (raw d)) s = (Ret (default_value t d), s).
Proof.
  intros t d s Hf. assert (Ht : (type_code t =? AttrCDATA) = is_cdata t) by (destruct t; reflexivity).
  assert (Hd : (default_code d =? DefInvalid) = false) by (destruct d; reflexivity). rewrite Ht, Hd.
  assert (G : forall v, is_cdata t = true \/ v = [] \/ tokens v <> [] ->
    (if negb (is_cdata t) && true then mlift S (attrNormalizeSpace v) else ret S v) s = (Ret (typed t v), s)).
  { intros v Hv. unfold typed. destruct (is_cdata t); [reflexivity|]. cbn [negb andb]. unfold mlift.
    destruct Hv as [Hv|[->|Hv]]; [discriminate|reflexivity|]. rewrite norm_words by (rewrite <- tokens_words; exact Hv).
    reflexivity. }
  cbn [negb]. destruct d as [| |v|v]; cbn [raw default_value default_fits] in *; try (apply G; exact Hf).
  - destruct (is_cdata t); reflexivity.
  - destruct (is_cdata t); reflexivity.
Qed.
Lemma ncname_single : forall n, ncname E n -> prefix_local (utf8 n) = ([], utf8 n).
Proof.
  intros n Hn. unfold prefix_local. destruct (split_colon (utf8 n)) as [[a b]|] eqn:Sp; [|reflexivity].
  apply split_colon_some in Sp as [Sp _]. exfalso.
  assert (Hi : In 58 (utf8 n)) by (rewrite Sp; apply in_app_iff; right; left; reflexivity).
  apply utf8_In_ascii in Hi; [|lia]. revert Hi. apply (ncname_no58 E OK), Hn.
Qed.
Lemma add_default : forall xs x v l tab nd ht z, Forall good xs -> good x -> NoDup (map akey (xs ++ [x])) ->
  default_value (ad_type (snd x)) (ad_default (snd x)) = v -> v <> [] -> let h' := fst (h_createAttr H (fst ht) (att_of x) [] v) in
  addAttributeDefault S H (elem_of x) (att_of x) v (st l tab nd ht (with_decls xs z)) =
    (Ret tt, st l tab nd (h', snd ht) (set_default S (flat_map default_entry (xs ++ [x])) (with_decls xs z))) /\
  forall m, known h' m = known (fst ht) m.
Proof.
  intros xs x v l tab nd ht z Gxs Gx Hnd Hv Hne. cbv zeta.
  split; [|intros; apply (r_attribute_known S H known R)].
  unfold addAttributeDefault. erewrite bind_ret by reflexivity.
  change (attsSpecial (st l tab nd ht (with_decls xs z))) with (rev (map special_entry xs)).
  rewrite fresh_lookup by auto. unfold att_of at 1. rewrite ncname_single by apply Gx. fold (att_of x).
  change (hs (st l tab nd ht (with_decls xs z))) with (fst ht).
  pose proof (r_attribute S H known R (fst ht) (att_of x) [] v) as Ha.
  destruct (h_createAttr H (fst ht) (att_of x) [] v) as [h' o]. cbn [fst snd] in *. subst o.
  change (attsDefault (st l tab nd ht (with_decls xs z))) with (flat_map default_entry xs).
  rewrite fresh_filter by auto. rewrite flat_map_app. cbn [flat_map]. rewrite app_nil_r.
  replace (default_entry x) with [(elem_of x, att_of x, (att_of x, @nil Z, v))]; [reflexivity|].
  unfold default_entry. rewrite Hv. destruct v; [congruence|reflexivity].
Qed.

Lemma nodup_prefix : forall A (a b : list A), NoDup (a ++ b) -> NoDup a.
Proof.
  intros A a. induction a as [|x a IH]; intros b Hn; [constructor|]. inversion Hn; subst. constructor; [|eauto].
  intro; apply H2, in_or_app; auto.
Qed.
Lemma bind2 : forall A B C (m : M S A) (k : M S B) (f : M S C) s a s', bind S m (fun _ => k) s = (Ret a, s') ->
  bind S m (fun _ => bind S k (fun _ => f)) s = f s'.
Proof. intros A B C m k f s a s' Hm. unfold bind in *. destruct (m s) as [[x|e| |] s1]; try discriminate. rewrite Hm. reflexivity. Qed.
(* the trace has grown by some events, and the entities are known now *)
Definition told (v : view) (ht : HT) (evs : list event) (es : list (list Z * list Z)) (ht' : HT) : Prop :=
  map fst (snd ht') = rev evs ++ map fst (snd ht) /\
  (forall n t, In (n, t) es -> known (fst ht') (utf8 n) = Some (utf8 t)) /\
  (forall m, ~ In m (map (fun x => utf8 (fst x)) es) -> known (fst ht') m = known (fst ht) m) /\
  path E true H v (fst ht) evs (fst ht').
Lemma went_told : forall v ht evs ht', went v ht evs ht' -> told v ht evs [] ht'.
Proof. intros v ht evs ht' (W1 & W2 & W3). split; [auto|]. split; [intros n t []|]. split; [auto|apply path_more, W3]. Qed.
Lemma told_app : forall v h a es h1 b es' h2, told v h a es h1 -> told v h1 b es' h2 ->
  (forall m, In m (map (fun x => utf8 (fst x)) es) -> ~ In m (map (fun x => utf8 (fst x)) es')) -> told v h (a ++ b) (es ++ es') h2.
Proof.
  intros v h a es h1 b es' h2 (A1 & A2 & A3 & A4) (B1 & B2 & B3 & B4) Hdis. split; [|split; [|split]].
  - rewrite B1, A1, rev_app_distr, app_assoc. reflexivity.
  - intros n t Hi. apply in_app_or in Hi as [Hi|Hi]; [|auto]. rewrite B3; [auto|]. apply Hdis.
    apply in_map_iff. exists (n, t). auto.
  - intros m Hm. rewrite map_app in Hm. rewrite B3, A3; auto; intro; apply Hm, in_or_app; auto.
  - eapply path_app; eauto.
Qed.
Lemma attdef_step : forall p l a t b rest xs n tab nd ht z, attdef_text E a t -> blanks b -> dname E p l ->
  (match rest with c :: _ => blank c = false | [] => False end) -> (b = [] -> hd 0 rest = 62) ->
  Forall good xs -> NoDup (map akey (xs ++ [((p, l), a)])) -> (List.length t <= n)%nat ->
  exists ht', told (the_view S z) ht [attdef_event p l a] [] ht' /\
  attlistLoop E S H (Datatypes.S n) (utf8 (qname p l)) (st (t ++ b ++ rest) tab nd ht (with_decls xs z)) =
    (if hd 0 rest =? 62 then madvance E S 1 else attlistLoop E S H n (utf8 (qname p l)))
      (st rest tab nd ht' (with_decls (xs ++ [((p, l), a)]) z)).
Proof.
  intros p l a t b rest xs n tab nd ht z Ht Hb Hpl Hrest Hb0 Gxs Hnd Hn.
  destruct Ht as [b1 b2 t Hb1 Hb1' Hb2 Hb2' Hname Hdt Hfit].
  destruct (accept_quiet E S H known R (the_view S z) ht (attdef_event p l a)) as (h1 & D1 & W1).
  { intros ? ? ? ? ?; discriminate. }
  set (x := ((p, l), a) : declaration) in *. assert (Gx : good x) by (split; auto).
  assert (Hw : exists ht', told (the_view S z) ht [attdef_event p l a] [] ht' /\
    (bind S (if negb (str_eqb (default_value (ad_type a) (ad_default a)) []) && negb (default_code (ad_default a) =? DefImplied) &&
         negb (default_code (ad_default a) =? DefRequired)
      then addAttributeDefault S H (utf8 (qname p l)) (utf8 (ad_name a)) (default_value (ad_type a) (ad_default a)) else ret S tt)
     (fun _ => modify S (fun s => set_special S (putSpecial (special_key (utf8 (qname p l)) (utf8 (ad_name a))) (type_code (ad_type a)) (attsSpecial s)) s)))
     (st rest tab nd h1 (with_decls xs z)) = (Ret tt, st rest tab nd ht' (with_decls (xs ++ [x]) z))).
  { assert (Hput : forall q, putSpecial (special_key (utf8 (qname p l)) (utf8 (ad_name a))) q (rev (map special_entry xs)) = (special_key (utf8 (qname p l)) (utf8 (ad_name a)), q) :: rev (map special_entry xs))
      by (intros q; apply put_new; exact (fresh_lookup xs x Gxs Gx Hnd)).
    destruct (default_value (ad_type a) (ad_default a)) as [|v0 v] eqn:Ev.
    - exists h1. split; [apply went_told, W1|]. cbn [str_eqb negb andb]. erewrite bind_ret by reflexivity. unfold modify, with_decls. cbn [attsSpecial set_special Complete.st]. rewrite Hput.
      rewrite map_app, rev_app_distr, flat_map_app. cbn [map rev app flat_map]. rewrite app_nil_r.
      replace (default_entry x) with (@nil (str * str * (str * str * str))) by (unfold default_entry; cbn [x snd]; rewrite Ev; reflexivity).
      rewrite app_nil_r. reflexivity.
    - destruct (add_default xs x (v0 :: v) rest tab nd h1 z Gxs Gx Hnd Ev ltac:(discriminate)) as (Hadd & Hk).
      set (h' := fst (h_createAttr H (fst h1) (att_of x) [] (v0 :: v))) in *. exists (h', snd h1). split.
      { destruct W1 as (W2 & W3 & W4). split; [exact W2|]. split; [intros n0 t0 []|]. split; [intros m _; cbn [fst]; rewrite Hk; apply W3|].
        clear - D1 Ev. unfold attdef_event in *. rewrite Ev in *. cbn [deliver fst snd] in D1. apply p_attribute; [reflexivity|]. cbn [fst].
        replace (fst (h_event H (fst ht) _ _)) with (fst h1); [apply p_nil|].
        destruct (h_event H (fst ht) (the_view S z) _) as [hh []]; inversion D1; reflexivity. }
      replace (negb (str_eqb (v0 :: v) []) && negb (default_code (ad_default a) =? DefImplied) && negb (default_code (ad_default a) =? DefRequired)) with true.
      2:{ destruct (ad_default a); cbn [default_value] in Ev; try discriminate; reflexivity. }
      erewrite bind_ret by exact Hadd. unfold modify, with_decls. cbn [attsSpecial set_special Complete.st]. rewrite Hput, map_app, rev_app_distr. reflexivity. }
  destruct Hw as (ht' & W & Hw). exists ht'. split; [exact W|]. cbn [attlistLoop]. rewrite <- !app_assoc.
  destruct (ad_name a) as [|n0 nm] eqn:En; [destruct Hname as [[] _]|]. rewrite <- En in *.
  destruct b1 as [|c1 b1]; [congruence|]. inversion Hb1' as [|? ? Hc1 _]; subst.
  destruct b2 as [|c2 b2]; [congruence|]. inversion Hb2' as [|? ? Hc2 _]; subst.
  assert (Hn62 : n0 <> 62 /\ blank n0 = false).
  { destruct Hname as [Hname _]. rewrite En in Hname. destruct Hname as [Hs _]. destruct (name_start_facts E OK n0 Hs) as (_ & ? & _).
    split; [auto|]. apply (name_start_blank E OK n0 Hs). }
  erewrite bind_ret.
  2:{ eapply (mpeek_eq E S _ n0). rewrite En. reflexivity. }
  destruct (Z.eqb_spec n0 62); [tauto|].
  assert (Y : closer c1 = true) by (unfold closer; rewrite Hc1; reflexivity). destruct (closer_end E OK c1 Y) as (Y1 & Y2 & _).
  erewrite bind_ret.
  2:{ apply lift_st. unfold por_else. rewrite (parseName_app E (ad_name a) _ OK (ncname_nameOf E OK _ Hname)); [reflexivity|]. split; assumption. }
  erewrite bind_ret by (eapply (mpeek_eq E S _ c1); reflexivity). rewrite <- blank_is, Hc1. cbn [negb].
  assert (Hkw : match keyword (ad_type a) ++ (c2 :: b2) ++ t ++ b ++ rest with [] => True | c :: _ => blank c = false end)
    by (destruct (ad_type a); reflexivity).
  erewrite bind_ret by (apply (mskip_st S (c1 :: b1)); [auto|exact Hkw]).
  erewrite bind_ret.
  2:{ apply lift_st. unfold pwrap. rewrite attribute_type by (auto; discriminate). reflexivity. }
  cbv beta iota. erewrite bind_ret by (eapply (mpeek_eq E S _ c2); reflexivity). rewrite <- blank_is, Hc2. cbn [negb].
  erewrite bind_ret.
  2:{ apply (mskip_st S (c2 :: b2)); [auto|]. destruct Hdt as [| | |q lit v [->| ->] _]; reflexivity. }
  rewrite !app_length in Hn. cbn [List.length] in Hn.
  erewrite bind_ret by (apply wrap_ret; apply default_decl; [exact Hdt|lia]).
  cbv beta iota. erewrite bind_ret by (apply default_norm; exact Hfit).
  destruct rest as [|r0 rest]; [destruct Hrest|]. cbn [hd] in *.
  destruct b as [|b0 b].
  - rewrite (Hb0 eq_refl). cbn [app]. erewrite bind_ret by apply mpeek_st. cbv beta iota. change (62 =? 62) with true. cbv iota.
    erewrite bind_ret by reflexivity. rewrite (Hb0 eq_refl) in Hw.
    erewrite bind_ret by (apply emit_st; exact D1). erewrite bind2 by exact Hw.
    erewrite bind_ret by apply mpeek_st. reflexivity.
  - inversion Hb as [|? ? Hb0' _]; subst. erewrite bind_ret by (eapply (mpeek_eq E S _ b0); reflexivity). cbv beta.
    destruct (Z.eqb_spec b0 62) as [->|_]; [discriminate|]. rewrite <- blank_is, Hb0'. cbn [negb].
    erewrite bind_ret.
    2:{ erewrite bind_ret by (apply (mskip_st S (b0 :: b)); [auto|exact Hrest]). reflexivity. }
    erewrite bind_ret by (apply emit_st; exact D1). erewrite bind2 by exact Hw.
    erewrite bind_ret by apply mpeek_st. reflexivity.
Qed.
Lemma attdefs_st : forall defs t, attdefs E defs t -> forall p l xs n rest tab nd ht z, dname E p l ->
  Forall good xs -> NoDup (map akey (xs ++ map (pair (p, l)) defs)) -> (List.length t < n)%nat ->
  exists ht', told (the_view S z) ht (map (attdef_event p l) defs) [] ht' /\
  attlistLoop E S H n (utf8 (qname p l)) (st (t ++ rest) tab nd ht (with_decls xs z)) =
    (Ret tt, st rest tab nd ht' (with_decls (xs ++ map (pair (p, l)) defs) z)).
Proof.
  intros defs t Hds. induction Hds as [a t b Ha Hb|a l0 t b s Ha Hb1 Hb2 Hds IH]; intros p l xs n rest tab nd ht z Hpl Gxs Hnd Hn;
    (destruct n as [|n]; [lia|]); rewrite !app_length in Hn; rewrite <- !app_assoc.
  - destruct (attdef_step p l a t b (62 :: rest) xs n tab nd ht z Ha Hb Hpl) as (ht' & W & P); auto; [lia|].
    exists ht'. split; [exact W|]. cbn [app hd] in P |- *. rewrite P. apply madv1_st.
  - assert (Hs : exists c w, s = c :: w /\ c <> 62 /\ blank c = false).
    { assert (X : exists a' t' w', attdef_text E a' t' /\ s = t' ++ w') by (destruct Hds; eauto).
      destruct X as (a' & t' & w' & [b1 b2 t0 _ _ _ _ Hname _ _] & ->). destruct (ad_name a') as [|c nm]; [destruct Hname as [[] _]|].
      destruct Hname as [[Hs _] _]. cbn [app]. eexists. eexists. split; [reflexivity|].
      destruct (name_start_facts E OK c Hs) as (_ & ? & _). split; [auto|apply (name_start_blank E OK c Hs)]. }
    destruct Hs as (c & w & -> & Hc1 & Hc2). cbn [map] in Hnd.
    destruct (attdef_step p l a t b ((c :: w) ++ rest) xs n tab nd ht z Ha Hb2 Hpl) as (h1 & W1 & P1); auto.
    { cbn. congruence. }
    { replace (xs ++ (p, l, a) :: map (pair (p, l)) l0) with ((xs ++ [(p, l, a)]) ++ map (pair (p, l)) l0) in Hnd by (rewrite <- app_assoc; reflexivity).
      rewrite map_app in Hnd. exact (nodup_prefix _ _ _ Hnd). }
    { lia. }
    destruct (IH p l (xs ++ [(p, l, a)]) n rest tab nd h1 z Hpl) as (h2 & W2 & P2).
    { apply Forall_app. split; [exact Gxs|]. constructor; [|constructor]. split; [exact Hpl|]. destruct Ha; auto. }
    { rewrite <- app_assoc. exact Hnd. }
    { destruct b; [congruence|]. cbn [List.length] in *. lia. }
    exists h2. split; [apply (told_app _ _ [_] [] h1 _ []); try assumption; intros ? []|]. rewrite P1. cbn [app hd].
    destruct (Z.eqb_spec c 62); [contradiction|]. change (c :: w ++ rest) with ((c :: w) ++ rest). rewrite P2. cbn [map]. rewrite <- app_assoc. reflexivity.
Qed.

(* ---- entities ---- *)
Lemma name_stop : forall n b r, ncname E n -> b <> [] -> blanks b -> parseName E (n ++ b ++ r) = (Ret (utf8 n), b ++ r).
Proof.
  intros n [|c b] r Hn Hb1 Hb2; [congruence|]. inversion Hb2 as [|? ? Hc _]; subst.
  assert (Y : closer c = true) by (unfold closer; rewrite Hc; reflexivity). destruct (closer_end E OK c Y) as (Y1 & Y2 & _).
  rewrite (parseName_app E n _ OK (ncname_nameOf E OK _ Hn)); [reflexivity|]. split; assumption.
Qed.
Lemma blanks_true : forall (b : list Z), b <> [] -> negb (Nat.eqb (List.length b) 0) = true.
Proof. intros [|c b] Hb; [congruence|reflexivity]. Qed.

(* what follows the name in an entity declaration *)
Lemma entity_rest : forall (param : bool) n b2 q lit v b3 l tab nd ht z, ncname E n -> b2 <> [] -> blanks b2 -> q = 34 \/ q = 39 ->
  entlit E q lit v -> blanks b3 -> (param = false -> known (fst ht) (utf8 n) = None) ->
  exists ht', told (the_view S z) ht [EEntityDecl (utf8 n) (if param then InternalParameterEntity else InternalGeneralEntity) [] [] (utf8 v)]
                (if param then [] else [(n, v)]) ht' /\
  bind S (lift S (pwrap (parseName E))) (fun name =>
      if mem_byte 58 name then failw S "colons are forbidden from entity names"
      else
        bind S (mskip S) (fun b3 =>
        if negb b3 then failw S "ErrSpaceRequired"
        else
          bind S (mpeek E S) (fun c2 =>
          bind S (if (c2 =? 34) || (c2 =? 39) then
               bind S (lift S (ptry (parseEntityValue E))) (fun r =>
               match r with
               | inr (literal, value) =>
                   bind S (emit S H (EEntityDecl name (if param : bool then InternalParameterEntity else InternalGeneralEntity) [] [] value)) (fun _ =>
                   ret S literal)
               | inl _ => ret S []
               end)
             else bind S (if param : bool then ret S tt else unquotedEntity E S H name) (fun _ => ret S [])) (fun literal =>
          bind S (mskip S) (fun _ =>
          bind S (mpeek E S) (fun c3 =>
          if negb (c3 =? 62) then failw S "entity not terminated"
          else
            bind S (madvance E S 1) (fun _ =>
            bind S (if param : bool then queryPEntity S H name else queryEntity S H name) (fun a =>
            match fst a with
            | Some e => modify S (fun s => set_hs S (h_setOrig H (hs s) e literal) s)
            | None => ret S tt
            end)))))))) (st (n ++ b2 ++ [q] ++ lit ++ [q] ++ b3 ++ [62] ++ l) tab nd ht z) = (Ret tt, st l tab nd ht' z).
Proof.
  intros param n b2 q lit v b3 l tab nd ht z Hn Hb2 Hb2' Hq Hlit Hb3 Hfresh.
  set (ev := EEntityDecl (utf8 n) (if param then InternalParameterEntity else InternalGeneralEntity) [] [] (utf8 v)).
  destruct (accept S H known R (the_view S z) ht ev) as (h1 & D1 & T1 & K1).
  assert (Hasked : exists h2, (bind S (if param : bool then queryPEntity S H (utf8 n) else queryEntity S H (utf8 n)) (fun a =>
            match fst a with
            | Some e => modify S (fun s => set_hs S (h_setOrig H (hs s) e (utf8 lit)) s)
            | None => ret S tt
            end)) (st l tab nd h1 z) = (Ret tt, st l tab nd (h2, snd h1) z) /\ (forall m, known h2 m = known (fst h1) m) /\ h2 = noted H (the_view S z) param (utf8 n) (utf8 lit) (fst h1)).
  { destruct param.
    - unfold bind at 1. unfold queryPEntity. change (hs (st l tab nd h1 z)) with (fst h1). change (the_view S (st l tab nd h1 z)) with (the_view S z).
      pose proof (r_parameter S H known R (fst h1) (the_view S z) (utf8 n)) as A1.
      pose proof (r_asked_parameter S H known R (fst h1) (the_view S z) (utf8 n)) as A2.
      destruct (h_getPEntity H (fst h1) (the_view S z) (utf8 n)) as [h' [e err|]] eqn:EP; [|exfalso; apply A1; reflexivity]. cbn [fst snd] in *. destruct e as [e|].
      + exists (h_setOrig H h' e (utf8 lit)). split; [reflexivity|]. split; [intros m; rewrite (r_original S H known R); auto|].
        unfold noted. rewrite EP. reflexivity.
      + exists h'. split; [reflexivity|]. split; [auto|]. unfold noted. rewrite EP. reflexivity.
    - unfold bind at 1. unfold queryEntity. change (hs (st l tab nd h1 z)) with (fst h1). change (the_view S (st l tab nd h1 z)) with (the_view S z).
      assert (Hk : known (fst h1) (utf8 n) = Some (utf8 v)) by (rewrite K1; apply (r_declared S H known R); auto).
      destruct (r_answers S H known R (fst h1) (the_view S z) _ _ Hk) as (i & A1).
      pose proof (r_asked S H known R (fst h1) (the_view S z) (utf8 n)) as A2.
      destruct (h_getEntity H (fst h1) (the_view S z) (utf8 n)) as [h' a] eqn:EP. cbn [fst snd] in *. subst a.
      eexists. split; [reflexivity|]. split; [intros m; rewrite (r_original S H known R); auto|].
      unfold noted. rewrite EP. reflexivity. }
  destruct Hasked as (h2 & P2 & K2 & Q2). exists (h2, snd h1). split.
  { split; [|split; [|split]].
    - exact T1.
    - intros m t Hi. cbn [fst]. rewrite K2. destruct param; [destruct Hi|]. destruct Hi as [Hi|[]]. inversion Hi; subst.
      rewrite K1. apply (r_declared S H known R); auto.
    - intros m Hm. cbn [fst]. rewrite K2, K1. apply (r_other S H known R). intros p s c Hev. subst ev. inversion Hev; subst.
      destruct param; [discriminate|]. apply Hm. left. reflexivity.
    - eapply (p_declared _ _ _ _ _ param _ _ (utf8 lit)); [reflexivity|exists q, lit, v; auto|]. fold ev. rewrite <- K1, <- Q2. apply p_nil. }
  erewrite bind_ret by (apply lift_st; unfold pwrap; rewrite name_stop by auto; reflexivity).
  replace (mem_byte 58 (utf8 n)) with false.
  2:{ symmetry. apply mem_byte_false. intros Hi. apply utf8_In_ascii in Hi; [|lia]. revert Hi. apply (ncname_no58 E OK), Hn. }
  erewrite bind_ret by (apply mskip_st; [auto|apply quote_not_blank; auto]). rewrite blanks_true by auto. cbn [negb].
  erewrite bind_ret by (eapply (mpeek_eq E S _ q); reflexivity). cbv beta. replace ((q =? 34) || (q =? 39)) with true by lia.
  erewrite bind_ret.
  2:{ erewrite bind_ret by (apply lift_st; unfold ptry; rewrite (entity_value E OK q lit v _ Hlit Hq); reflexivity).
      cbv beta iota. erewrite bind_ret by (apply emit_st; exact D1). reflexivity. }
  erewrite bind_ret by (apply mskip_st; [auto|reflexivity]). cbn [app].
  erewrite bind_ret by apply mpeek_st. change (62 =? 62) with true. cbn [negb]. erewrite bind_ret by apply madv1_st. exact P2.
Qed.
Lemma general_decl : forall b1 n b2 q lit v b3 l tab nd ht z, b1 <> [] -> blanks b1 -> ncname E n -> b2 <> [] -> blanks b2 -> q = 34 \/ q = 39 ->
  entlit E q lit v -> blanks b3 -> known (fst ht) (utf8 n) = None ->
  exists ht', told (the_view S z) ht [EEntityDecl (utf8 n) InternalGeneralEntity [] [] (utf8 v)] [(n, v)] ht' /\
  parseEntityDecl E S H (st (s_ "<!ENTITY" ++ b1 ++ n ++ b2 ++ [q] ++ lit ++ [q] ++ b3 ++ [62] ++ l) tab nd ht z) = (Ret tt, st l tab nd ht' z).
Proof.
  intros b1 n b2 q lit v b3 l tab nd ht z Hb1 Hb1' Hn Hb2 Hb2' Hq Hlit Hb3 Hfresh.
  destruct (entity_rest false n b2 q lit v b3 l tab nd ht z) as (ht' & T & P); auto. exists ht'. split; [exact T|].
  unfold parseEntityDecl. erewrite bind_ret by apply mconsume_st. cbn [negb].
  assert (Hh : exists c w, n = c :: w /\ blank c = false /\ c <> 37).
  { destruct (ncname_plain E OK n Hn) as (_ & _ & N3 & _). destruct n as [|c w]; [destruct Hn as [[] _]|]. destruct Hn as [[Hs _] _].
    exists c, w. split; [auto|]. split; [apply (name_start_blank E OK c Hs)|]. intros ->. apply N3. left. auto. }
  destruct Hh as (c & w & En & Hc1 & Hc2).
  erewrite bind_ret by (apply mskip_st; [auto|rewrite En; exact Hc1]). rewrite blanks_true by auto. cbn [negb].
  erewrite bind_ret by (eapply (mpeek_eq E S _ c); rewrite En; reflexivity). cbv beta. destruct (Z.eqb_spec c 37); [contradiction|].
  erewrite bind_ret by reflexivity. exact P.
Qed.
Lemma param_decl : forall b1 b0 n b2 q lit v b3 l tab nd ht z, b1 <> [] -> blanks b1 -> b0 <> [] -> blanks b0 -> ncname E n -> b2 <> [] -> blanks b2 ->
  q = 34 \/ q = 39 -> entlit E q lit v -> blanks b3 ->
  exists ht', told (the_view S z) ht [EEntityDecl (utf8 n) InternalParameterEntity [] [] (utf8 v)] [] ht' /\
  parseEntityDecl E S H (st (s_ "<!ENTITY" ++ b1 ++ [37] ++ b0 ++ n ++ b2 ++ [q] ++ lit ++ [q] ++ b3 ++ [62] ++ l) tab nd ht z) = (Ret tt, st l tab nd ht' z).
Proof.
  intros b1 b0 n b2 q lit v b3 l tab nd ht z Hb1 Hb1' Hb0 Hb0' Hn Hb2 Hb2' Hq Hlit Hb3.
  destruct (entity_rest true n b2 q lit v b3 l tab nd ht z) as (ht' & T & P); auto; [discriminate|]. exists ht'. split; [exact T|].
  unfold parseEntityDecl. erewrite bind_ret by apply mconsume_st. cbn [negb].
  assert (Hh : exists c w, n = c :: w /\ blank c = false).
  { destruct n as [|c w]; [destruct Hn as [[] _]|]. destruct Hn as [[Hs _] _]. exists c, w. split; [auto|]. apply (name_start_blank E OK c Hs). }
  destruct Hh as (c & w & En & Hc1).
  erewrite bind_ret by (apply mskip_st; [auto|reflexivity]). rewrite blanks_true by auto. cbn [negb].
  erewrite bind_ret by (eapply (mpeek_eq E S _ 37); reflexivity). cbv beta. change (37 =? 37) with true. cbv iota.
  erewrite bind_ret.
  2:{ erewrite bind_ret by apply madv1_st. erewrite bind_ret by (apply mskip_st; [auto|rewrite En; exact Hc1]).
      rewrite blanks_true by auto. reflexivity. }
  exact P.
Qed.
Lemma attlist_decl : forall b1 p l b2 defs t n rest tab nd ht z xs, b1 <> [] -> blanks b1 -> pname E p l -> b2 <> [] -> blanks b2 ->
  attdefs E defs t -> Forall good xs -> NoDup (map akey (xs ++ map (pair (p, l)) defs)) -> (List.length t < n)%nat ->
  exists ht', told (the_view S z) ht (map (attdef_event p l) defs) [] ht' /\
  parseAttributeListDecl E S H n (st (s_ "<!ATTLIST" ++ b1 ++ qname p l ++ b2 ++ t ++ rest) tab nd ht (with_decls xs z)) =
    (Ret tt, st rest tab nd ht' (with_decls (xs ++ map (pair (p, l)) defs) z)).
Proof.
  intros b1 p l b2 defs t n rest tab nd ht z xs Hb1 Hb1' Hpl Hb2 Hb2' Hds Gxs Hnd Hn.
  destruct (attdefs_st defs t Hds p l xs n rest tab nd ht z Hpl Gxs Hnd Hn) as (ht' & W & P). exists ht'. split; [exact W|].
  unfold parseAttributeListDecl. erewrite bind_ret by apply mconsume_st. cbn [negb].
  destruct b1 as [|c1 b1]; [congruence|]. inversion Hb1' as [|? ? Hc1 _]; subst.
  erewrite bind_ret by (eapply (mpeek_eq E S _ c1); reflexivity). rewrite <- blank_is, Hc1. cbn [negb].
  destruct (qname_head E p l (proj1 Hpl)) as (u & v & Eq & Hu).
  erewrite bind_ret by (apply (mskip_st S (c1 :: b1)); [auto|rewrite Eq; apply (name_start_blank E OK u Hu)]).
  destruct b2 as [|c2 b2]; [congruence|]. inversion Hb2' as [|? ? Hc2 _]; subst.
  assert (Y : closer c2 = true) by (unfold closer; rewrite Hc2; reflexivity). destruct (closer_end E OK c2 Y) as (Y1 & Y2 & _).
  erewrite bind_ret.
  2:{ apply lift_st. unfold pwrap. rewrite (parseName_app E _ _ OK (dname_nameOf E OK p l Hpl)); [reflexivity|]. split; assumption. }
  erewrite bind_ret.
  2:{ apply (mskip_st S (c2 :: b2)); [auto|].
      assert (X : exists a' t' w', attdef_text E a' t' /\ t = t' ++ w') by (destruct Hds; eauto).
      destruct X as (a' & t' & w' & [x1 x2 t0 _ _ _ _ Hname _ _] & ->). destruct (ad_name a') as [|c nm]; [destruct Hname as [[] _]|].
      destruct Hname as [[Hs _] _]. apply (name_start_blank E OK c Hs). }
  exact P.
Qed.

(* ---- the internal subset ---- *)
Lemma pe_none : forall l tab nd ht z, l <> [] -> hd 0 l <> 37 -> parsePEReference E S H (st l tab nd ht z) = (Ret tt, st l tab nd ht z).
Proof.
  intros [|c l] tab nd ht z Hl Hc; [congruence|]. unfold parsePEReference. erewrite bind_ret by apply mpeek_st.
  cbn [hd] in Hc. destruct (Z.eqb_spec c 37); [contradiction|]. reflexivity.
Qed.
Lemma loop_step : forall x l n tab nd ht ht' z z',
  parseMarkupDecl E S H n (st (60 :: x) tab nd ht z) = (Ret tt, st l tab nd ht' z') -> l <> [] -> hd 0 l <> 37 ->
  subsetLoop E S H (Datatypes.S n) (st (60 :: x) tab nd ht z) = subsetLoop E S H n (st l tab nd ht' z').
Proof.
  intros x l n tab nd ht ht' z z' Hp Hl Hc. cbn [subsetLoop].
  erewrite (bind_ret _ _ _ _ _ _ false) by reflexivity. erewrite bind_ret by apply mpeek_st. cbv beta. change (60 =? 93) with false. cbn [orb].
  destruct (mskip0_st S (60 :: x) tab nd ht z eq_refl) as [b Hb]. erewrite bind_ret by exact Hb.
  erewrite bind_ret by (apply wrap_ret; exact Hp). erewrite bind_ret by (apply wrap_ret, pe_none; auto). reflexivity.
Qed.
Lemma loop_end : forall l n tab nd ht z, hd 0 l = 93 -> subsetLoop E S H (Datatypes.S n) (st l tab nd ht z) = (Ret tt, st l tab nd ht z).
Proof.
  intros [|c l] n tab nd ht z Hc; [discriminate|]. cbn [hd] in Hc. subst c. cbn [subsetLoop].
  erewrite (bind_ret _ _ _ _ _ _ false) by reflexivity. erewrite bind_ret by apply mpeek_st. cbv beta. reflexivity.
Qed.
Lemma loop_blank : forall c l n tab nd ht z, blank c = true -> l <> [] -> (exists b x w, l = b ++ x :: w /\ blanks b /\ blank x = false) ->
  subsetLoop E S H (Datatypes.S (Datatypes.S n)) (st (c :: l) tab nd ht z) = subsetLoop E S H (Datatypes.S (Datatypes.S n)) (st l tab nd ht z).
Proof.
  intros c l n tab nd ht z Hc Hl (b & x & w & -> & Hb & Hx).
  assert (Hc93 : c <> 93) by (intros ->; discriminate).
  assert (G : forall y v m, y <> 93 -> forall b', y :: v = b' ++ x :: w -> blanks b' ->
    subsetLoop E S H (Datatypes.S m) (st (y :: v) tab nd ht z) =
    bind S (wrap S (parseMarkupDecl E S H m)) (fun _ => bind S (wrap S (parsePEReference E S H)) (fun _ => subsetLoop E S H m)) (st (x :: w) tab nd ht z)).
  { intros y v m Hy b' Heq Hb'. cbn [subsetLoop]. erewrite (bind_ret _ _ _ _ _ _ false) by reflexivity. erewrite bind_ret by apply mpeek_st. cbv beta.
    destruct (Z.eqb_spec y 93); [contradiction|]. cbn [Complete.st inp done orb]. rewrite Heq.
    erewrite bind_ret by (apply mskip_st; [exact Hb'|exact Hx]). reflexivity. }
  rewrite (G c (b ++ x :: w) (Datatypes.S n)) with (b' := c :: b); auto; [|constructor; auto].
  destruct b as [|y b].
  - cbn [app] in *. destruct (Z.eqb_spec x 93) as [->|Hx93].
    + rewrite (loop_end (93 :: w)) by reflexivity.
      erewrite bind_ret.
      2:{ apply wrap_ret. unfold parseMarkupDecl. cbn [Complete.st inp peek]. change (93 =? 60) with false. cbv iota. apply wrap_ret, pe_none; discriminate. }
      erewrite bind_ret by (apply wrap_ret, pe_none; discriminate). apply loop_end. reflexivity.
    + rewrite (G x w (Datatypes.S n)) with (b' := []); auto.
  - inversion Hb as [|? ? Hy Hb']; subst. cbn [app].
    rewrite (G y (b ++ x :: w) (Datatypes.S n)) with (b' := y :: b); auto. intros ->; discriminate.
Qed.

Definition PS (s : list Z) (ds : list decl) (evs : list event) : Prop :=
  exists N, forall n r tab nd ht z xs, (N <= n)%nat -> hd 0 r = 93 -> Forall good xs -> NoDup (map akey (xs ++ declared ds)) ->
  NoDup (map fst (entities ds)) -> (forall n, In n (map fst (entities ds)) -> known (fst ht) (utf8 n) = None) ->
  exists ht' evs', Forall2 same evs evs' /\ told (the_view S z) ht evs' (entities ds) ht' /\
    subsetLoop E S H n (st (s ++ r) tab nd ht (with_decls xs z)) = (Ret tt, st r tab nd ht' (with_decls (xs ++ declared ds) z)).

Lemma subset_names : forall s ds evs, subset E s ds evs ->
  Forall good (declared ds) /\ (forall n t, In (n, t) (entities ds) -> ncname E n /\ legals t) /\
  (s = [] \/ exists c w, s = c :: w /\ (blank c = true \/ c = 60)).
Proof.
  intros s ds evs Hs. induction Hs as [|c s ds evs Hc _ IH|b b' s ds evs _ _ _ IH|t s ds evs _ _ IH|t b x s ds evs _ _ _ _ _ IH
    |b1 n b2 q lit v b3 s ds evs _ _ Hn _ _ Hq Hlit _ _ IH|b1 b0 n b2 q lit v b3 s ds evs _ _ _ _ Hn _ _ Hq Hlit _ _ IH
    |p l sp t m s ds evs Hpl _ Ht _ _ _ IH|b1 p l b2 defs t s ds evs _ _ Hpl _ _ Hds _ IH]; try destruct IH as (IH1 & IH2 & _);
    (split; [|split; [|first [left; reflexivity | right; eexists; eexists; split; [reflexivity|auto; fail]|idtac]]]); auto.
  - constructor.
  - intros n t [].
  - intros n0 t [Hi|Hi]; [|auto]. inversion Hi; subst. split; [auto|]. apply (entlit_chars E OK q lit t Hlit Hq).
  - right. destruct Ht. eexists. eexists. split; [reflexivity|auto].
  - cbn [declared flat_map]. apply Forall_app. split; [|auto]. clear - Hds Hpl.
    induction Hds as [a t b Ha Hb|a l0 t b s Ha Hb1 Hb2 Hds IH]; (constructor; [split; [exact Hpl|destruct Ha; auto]|]); auto.
Qed.
Lemma subset_next : forall s ds evs r, subset E s ds evs -> hd 0 r = 93 -> s ++ r <> [] /\ hd 0 (s ++ r) <> 37.
Proof.
  intros s ds evs r Hs Hr. destruct (subset_names s ds evs Hs) as (_ & _ & [->|(c & w & -> & Hc)]).
  - destruct r; [discriminate|]. cbn [app hd] in *. split; [discriminate|lia].
  - cbn [app hd]. split; [discriminate|]. unfold blank in Hc. lia.
Qed.
Lemma subset_skip : forall s ds evs r, subset E s ds evs -> hd 0 r = 93 -> exists b x w, s ++ r = b ++ x :: w /\ blanks b /\ blank x = false.
Proof.
  intros s ds evs r Hs Hr. induction Hs as [|c s ds evs Hc Hs IH|b b' s ds evs|t s ds evs|t b x s ds evs
    |b1 n b2 q lit v b3 s ds evs|b1 b0 n b2 q lit v b3 s ds evs|p l sp t m s ds evs Hpl _ Ht|b1 p l b2 defs t s ds evs];
    try (eexists []; eexists; eexists; split; [reflexivity|split; [constructor|reflexivity]]; fail).
  - destruct r as [|c r]; [discriminate|]. cbn in Hr. subst. exists [], 93, r. split; [reflexivity|split; [constructor|reflexivity]].
  - destruct IH as (b & x & w & Heq & Hb & Hx). exists (c :: b), x, w. split; [cbn [app]; rewrite Heq; reflexivity|split; [constructor; auto|auto]].
  - destruct Ht. eexists [], 60, _. split; [reflexivity|split; [constructor|reflexivity]].
Qed.

(* one item, which may be a declaration, then the rest *)
Lemma subset_item : forall x s dl ds e evs, subset E s ds evs -> PS s ds evs -> (exists x', x = 60 :: x') ->
  Forall good (declared dl) ->
  (forall n t, In (n, t) (entities dl) -> ncname E n) ->
  (exists N, forall n l tab nd ht z xs, (N <= n)%nat -> l <> [] -> hd 0 l <> 37 -> Forall good xs -> NoDup (map akey (xs ++ declared dl)) ->
     (forall n, In n (map fst (entities dl)) -> known (fst ht) (utf8 n) = None) ->
     exists ht' e', Forall2 same e e' /\ told (the_view S z) ht e' (entities dl) ht' /\
       parseMarkupDecl E S H n (st (x ++ l) tab nd ht (with_decls xs z)) = (Ret tt, st l tab nd ht' (with_decls (xs ++ declared dl) z))) ->
  PS (x ++ s) (dl ++ ds) (e ++ evs).
Proof.
  intros x s dl ds e evs Hsub [N IH] [x' ->] Gd Hnames [N1 Hitem]. exists (Datatypes.S (N + N1)).
  intros n r tab nd ht z xs Hn Hr Gxs Hnd Hne Hfresh. destruct n as [|n]; [lia|]. unfold declared in Hnd |- *. rewrite flat_map_app in Hnd |- *. fold (declared dl) (declared ds) in *.
  unfold entities in Hne, Hfresh |- *. rewrite flat_map_app in Hne, Hfresh |- *. fold (entities dl) (entities ds) in *.
  destruct (subset_next s ds evs r Hsub Hr) as [L1 L2]. destruct (subset_names s ds evs Hsub) as (_ & Hn2 & _).
  rewrite map_app in Hne, Hfresh.
  destruct (Hitem n (s ++ r) tab nd ht z xs) as (h1 & e' & F1 & T1 & P1); auto; [lia| | |].
  { rewrite app_assoc, map_app in Hnd. exact (nodup_prefix _ _ _ Hnd). }
  { intros m Hm. apply Hfresh, in_or_app. auto. }
  assert (Hdis : forall m, In m (map (fun x : list Z * list Z => utf8 (fst x)) (entities dl)) -> ~ In m (map (fun x : list Z * list Z => utf8 (fst x)) (entities ds))).
  { intros m Hm1 Hm2. apply in_map_iff in Hm1 as ((a & ta) & Ha1 & Ha2). apply in_map_iff in Hm2 as ((b & tb) & Hb1 & Hb2). cbn [fst] in *.
    assert (a = b). { apply utf8_inj; [apply att_valid; eauto|apply att_valid; apply (Hn2 b tb Hb2)|congruence]. }
    subst b. assert (X1 : In a (map fst (entities dl))) by (apply in_map_iff; exists (a, ta); auto).
    assert (X2 : In a (map fst (entities ds))) by (apply in_map_iff; exists (a, tb); auto).
    revert X1 X2. clear - Hne. generalize (map fst (entities dl)) (map fst (entities ds)) Hne. intros A B Hne0 X1 X2.
    induction A as [|y A IHA]; [destruct X1|]. cbn [app] in Hne0. inversion Hne0; subst. destruct X1 as [->|X1]; [apply H1, in_or_app; auto|auto]. }
  destruct (IH n r tab nd h1 z (xs ++ declared dl)) as (h2 & evs' & F2 & T2 & P2); auto; [lia| | | | |].
  { apply Forall_app. auto. }
  { rewrite <- app_assoc. exact Hnd. }
  { clear - Hne. induction (map fst (entities dl)) as [|y A IHA]; [exact Hne|]. inversion Hne; auto. }
  { intros m Hm. destruct T1 as (_ & _ & T1 & _). rewrite T1; [apply Hfresh, in_or_app; auto|]. intros Hi. apply (Hdis (utf8 m) Hi).
    apply in_map_iff in Hm as ((a & ta) & Ha1 & Ha2). apply in_map_iff. exists (a, ta). cbn [fst] in *. subst. auto. }
  exists h2, (e' ++ evs'). split; [apply Forall2_app; auto|]. split; [apply (told_app _ _ _ _ h1); auto|].
  rewrite <- app_assoc. cbn [app] in P1 |- *. erewrite loop_step by (eauto). rewrite P2, <- app_assoc. reflexivity.
Qed.

Lemma flat_nil : forall A (B : Type) (f : A -> list B), flat_map f [] = []. Proof. reflexivity. Qed.
Theorem subset_st : forall s ds evs, subset E s ds evs -> PS s ds evs.
Proof.
  intros s ds evs Hs. induction Hs as [|c s ds evs Hc Hs [N IH]|b b' s ds evs Hb Hb' Hs IH|t s ds evs Ht Hs IH|t b x s ds evs Ht Hb1 Hb2 Hx Hs IH
    |b1 n b2 q lit v b3 s ds evs Hb1 Hb1' Hn Hb2 Hb2' Hq Hlit Hb3 Hs IH|b1 b0 n b2 q lit v b3 s ds evs Hb1 Hb1' Hb0 Hb0' Hn Hb2 Hb2' Hq Hlit Hb3 Hs IH
    |p l sp t m s ds evs Hpl Hfit Ht Hm Hm0 Hs IH|b1 p l b2 defs t s ds evs Hb1 Hb1' Hpl Hb2 Hb2' Hds Hs IH].
  - exists 1%nat. intros n r tab nd ht z xs Hn Hr _ _ _ _. destruct n as [|n]; [lia|]. exists ht, []. split; [constructor|].
    split; [apply went_told, went_nil|]. cbn [app declared flat_map]. rewrite app_nil_r. apply loop_end, Hr.
  - exists (Datatypes.S (Datatypes.S N)). intros n r tab nd ht z xs Hn Hr Gxs Hnd Hne Hfresh. destruct n as [|[|n]]; [lia|lia|].
    destruct (IH (Datatypes.S (Datatypes.S n)) r tab nd ht z xs) as (ht' & evs' & F & T & P); auto; [lia|]. exists ht', evs'. split; [exact F|]. split; [exact T|].
    cbn [app]. rewrite loop_blank; auto; [apply (subset_next s ds evs r Hs Hr)|apply (subset_skip s ds evs r Hs Hr)].
  - replace (s_ "<!--" ++ b ++ s_ "-->" ++ s) with ((s_ "<!--" ++ b ++ s_ "-->") ++ s) by (rewrite <- !app_assoc; reflexivity).
    apply (subset_item _ s [] ds [EComment (utf8 b')] evs Hs IH); [eexists; reflexivity|constructor|intros ? ? []|].
    exists O. intros n l tab nd ht z xs _ Hl1 Hl2 Gxs Hnd _. pose proof (eol_crlf_eq b b' Hb') as Heol.
    destruct (accept_quiet E S H known R (the_view S (with_decls xs z)) ht (EComment (utf8 b'))) as (h1 & D1 & W1); [intros ? ? ? ? ?; discriminate|].
    exists h1, [EComment (utf8 b')]. split; [apply same_refl|]. split; [apply went_told, W1|].
    cbn [declared flat_map]. rewrite app_nil_r, <- !app_assoc.
    change (bind S (wrap S (parseComment E S H)) (fun _ => wrap S (parsePEReference E S H)) (st (s_ "<!--" ++ b ++ s_ "-->" ++ l) tab nd ht (with_decls xs z)) =
      (Ret tt, st l tab nd h1 (with_decls xs z))).
    erewrite bind_ret. 2:{ apply wrap_ret. eapply parseComment_st; eauto. rewrite <- Heol. exact D1. }
    apply wrap_ret, pe_none; auto.
  - replace (s_ "<?" ++ t ++ s_ "?>" ++ s) with ((s_ "<?" ++ t ++ s_ "?>") ++ s) by (rewrite <- !app_assoc; reflexivity).
    apply (subset_item _ s [] ds [EProcessingInstruction (utf8 t) []] evs Hs IH); [eexists; reflexivity|constructor|intros ? ? []|].
    exists O. intros n l tab nd ht z xs _ Hl1 Hl2 Gxs Hnd _.
    destruct (accept_quiet E S H known R (the_view S (with_decls xs z)) ht (EProcessingInstruction (utf8 t) [])) as (h1 & D1 & W1); [intros ? ? ? ? ?; discriminate|].
    exists h1, [EProcessingInstruction (utf8 t) []]. split; [apply same_refl|]. split; [apply went_told, W1|].
    cbn [declared flat_map]. rewrite app_nil_r, <- !app_assoc.
    change (parsePI E S H (st (s_ "<?" ++ t ++ s_ "?>" ++ l) tab nd ht (with_decls xs z)) = (Ret tt, st l tab nd h1 (with_decls xs z))).
    apply parsePI_st0; auto.
  - replace (s_ "<?" ++ t ++ b ++ x ++ s_ "?>" ++ s) with ((s_ "<?" ++ t ++ b ++ x ++ s_ "?>") ++ s) by (rewrite <- !app_assoc; reflexivity).
    apply (subset_item _ s [] ds [EProcessingInstruction (utf8 t) (utf8 x)] evs Hs IH); [eexists; reflexivity|constructor|intros ? ? []|].
    exists O. intros n l tab nd ht z xs _ Hl1 Hl2 Gxs Hnd _.
    destruct (accept_quiet E S H known R (the_view S (with_decls xs z)) ht (EProcessingInstruction (utf8 t) (utf8 x))) as (h1 & D1 & W1); [intros ? ? ? ? ?; discriminate|].
    exists h1, [EProcessingInstruction (utf8 t) (utf8 x)]. split; [apply same_refl|]. split; [apply went_told, W1|].
    cbn [declared flat_map]. rewrite app_nil_r, <- !app_assoc.
    change (parsePI E S H (st (s_ "<?" ++ t ++ b ++ x ++ s_ "?>" ++ l) tab nd ht (with_decls xs z)) = (Ret tt, st l tab nd h1 (with_decls xs z))).
    apply parsePI_st; auto.
  - replace (s_ "<!ENTITY" ++ b1 ++ n ++ b2 ++ [q] ++ lit ++ [q] ++ b3 ++ [62] ++ s)
      with ((s_ "<!ENTITY" ++ b1 ++ n ++ b2 ++ [q] ++ lit ++ [q] ++ b3 ++ [62]) ++ s) by (rewrite <- !app_assoc; reflexivity).
    apply (subset_item _ s [DEntity false n v] ds [EEntityDecl (utf8 n) InternalGeneralEntity [] [] (utf8 v)] evs Hs IH);
      [eexists; reflexivity|constructor|intros ? ? [X|[]]; inversion X; subst; auto|].
    exists O. intros m l tab nd ht z xs _ Hl1 Hl2 Gxs Hnd Hfresh.
    destruct (general_decl b1 n b2 q lit v b3 l tab nd ht (with_decls xs z)) as (h1 & T1 & P1); auto; [apply Hfresh; left; reflexivity|].
    exists h1, [EEntityDecl (utf8 n) InternalGeneralEntity [] [] (utf8 v)]. split; [apply same_refl|]. split; [exact T1|].
    cbn [declared flat_map]. rewrite app_nil_r, <- !app_assoc.
    change (bind S (wrap S (parseEntityDecl E S H)) (fun _ => wrap S (parsePEReference E S H))
      (st (s_ "<!ENTITY" ++ b1 ++ n ++ b2 ++ [q] ++ lit ++ [q] ++ b3 ++ [62] ++ l) tab nd ht (with_decls xs z)) = (Ret tt, st l tab nd h1 (with_decls xs z))).
    erewrite bind_ret by (apply wrap_ret; exact P1). apply wrap_ret, pe_none; auto.
  - replace (s_ "<!ENTITY" ++ b1 ++ [37] ++ b0 ++ n ++ b2 ++ [q] ++ lit ++ [q] ++ b3 ++ [62] ++ s)
      with ((s_ "<!ENTITY" ++ b1 ++ [37] ++ b0 ++ n ++ b2 ++ [q] ++ lit ++ [q] ++ b3 ++ [62]) ++ s) by (rewrite <- !app_assoc; reflexivity).
    apply (subset_item _ s [DEntity true n v] ds [EEntityDecl (utf8 n) InternalParameterEntity [] [] (utf8 v)] evs Hs IH);
      [eexists; reflexivity|constructor|intros ? ? []|].
    exists O. intros m l tab nd ht z xs _ Hl1 Hl2 Gxs Hnd _.
    destruct (param_decl b1 b0 n b2 q lit v b3 l tab nd ht (with_decls xs z)) as (h1 & T1 & P1); auto.
    exists h1, [EEntityDecl (utf8 n) InternalParameterEntity [] [] (utf8 v)]. split; [apply same_refl|]. split; [exact T1|].
    cbn [declared flat_map]. rewrite app_nil_r, <- !app_assoc.
    change (bind S (wrap S (parseEntityDecl E S H)) (fun _ => wrap S (parsePEReference E S H))
      (st (s_ "<!ENTITY" ++ b1 ++ [37] ++ b0 ++ n ++ b2 ++ [q] ++ lit ++ [q] ++ b3 ++ [62] ++ l) tab nd ht (with_decls xs z)) = (Ret tt, st l tab nd h1 (with_decls xs z))).
    erewrite bind_ret by (apply wrap_ret; exact P1). apply wrap_ret, pe_none; auto.
  - apply (subset_item _ s [DElement p l sp] ds [EElementDecl (utf8 (qname p l)) (spec_code sp) m] evs Hs IH);
      [destruct Ht; eexists; reflexivity|constructor|intros ? ? []|].
    exists (List.length t). intros n l0 tab nd ht z xs Hn Hl1 Hl2 Gxs Hnd _.
    pose proof (scan_decl E OK p l sp t Ht Hpl Hfit n l0 Hn) as P1.
    destruct (accept_quiet E S H known R (the_view S (with_decls xs z)) ht (EElementDecl (utf8 (qname p l)) (spec_type sp) (spec_model sp))) as (h1 & D1 & W1); [intros ? ? ? ? ?; discriminate|].
    exists h1, [EElementDecl (utf8 (qname p l)) (spec_type sp) (spec_model sp)]. split.
    { constructor; [|constructor]. change (spec_type sp) with (spec_code sp). apply sm_element; [intros w; rewrite Hm; symmetry; apply (spec_stored E sp Hfit w)|].
      rewrite Hm0. destruct sp; cbn; (split; [intros [X|X]; congruence|intro X; try discriminate; auto]). }
    split; [apply went_told, W1|]. cbn [declared flat_map]. rewrite app_nil_r.
    assert (Hw : parseMarkupDecl E S H n (st (t ++ l0) tab nd ht (with_decls xs z)) =
      bind S (wrap S (parseElementDecl E S H n)) (fun _ => wrap S (parsePEReference E S H)) (st (t ++ l0) tab nd ht (with_decls xs z))).
    { destruct Ht. reflexivity. }
    rewrite Hw. erewrite bind_ret.
    2:{ apply wrap_ret. unfold parseElementDecl. erewrite bind_ret by (apply lift_st; exact P1). cbv beta iota. apply emit_st. exact D1. }
    apply wrap_ret, pe_none; auto.
  - replace (s_ "<!ATTLIST" ++ b1 ++ qname p l ++ b2 ++ t ++ s) with ((s_ "<!ATTLIST" ++ b1 ++ qname p l ++ b2 ++ t) ++ s) by (rewrite <- !app_assoc; reflexivity).
    apply (subset_item _ s [DAttlist p l defs] ds (map (attdef_event p l) defs) evs Hs IH);
      [eexists; reflexivity| |intros ? ? []|].
    { cbn [declared flat_map]. rewrite app_nil_r. clear - Hds Hpl.
      induction Hds as [a t b Ha Hb|a l0 t b s Ha Hb1 Hb2 Hds IH]; (constructor; [split; [exact Hpl|destruct Ha; auto]|]); auto. }
    exists (Datatypes.S (List.length t)). intros n l0 tab nd ht z xs Hn Hl1 Hl2 Gxs Hnd _. cbn [declared flat_map] in *. rewrite app_nil_r in *.
    destruct (attlist_decl b1 p l b2 defs t n l0 tab nd ht z xs) as (h1 & W1 & P1); auto.
    exists h1, (map (attdef_event p l) defs). split; [apply same_refl|]. split; [exact W1|]. rewrite <- !app_assoc.
    change (bind S (wrap S (parseAttributeListDecl E S H n)) (fun _ => wrap S (parsePEReference E S H))
      (st (s_ "<!ATTLIST" ++ b1 ++ qname p l ++ b2 ++ t ++ l0) tab nd ht (with_decls xs z)) = (Ret tt, st l0 tab nd h1 (with_decls (xs ++ map (pair (p, l)) defs) z))).
    erewrite bind_ret by (apply wrap_ret; exact P1). apply wrap_ret, pe_none; auto.
Qed.
End P.
