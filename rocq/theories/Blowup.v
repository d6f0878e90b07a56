(* A family of documents whose events are out of proportion to their length:
   twenty entities, each of which refers b times to the one before. *)
From Verif Require Import Base Utf8 Utf8Proofs XmlSpec Encoding Scan ScanProofs Parser TextProofs DocComplete Content Doctype DoctypeDoc.
From Verif Require Import Grammar.
From Coq Require Import ZifyBool.
Local Open Scope Z_scope.

(* the i-th entity is called by the i-th small letter *)
Definition letter (i : nat) : Z := 97 + Z.of_nat i.
(* b references to the i-th entity *)
Fixpoint refs (b i : nat) : list Z := match b with O => [] | S b' => 38 :: [letter i] ++ [59] ++ refs b' i end.
(* the replacement text of the i-th entity *)
Definition laugh (b i : nat) : list Z := match i with O => [] | S j => refs b j end.
(* the declarations from the i-th, k of them *)
Fixpoint laughs (b i k : nat) : list Z :=
  match k with
  | O => []
  | S k' => s_ "<!ENTITY" ++ [32] ++ [letter i] ++ [32] ++ [39] ++ laugh b i ++ [39] ++ [] ++ [62] ++ laughs b (S i) k'
  end.
Definition blowup (b : nat) : list Z :=
  s_ "<!DOCTYPE" ++ [32] ++ s_ "r" ++ [32] ++ [91] ++ laughs b 0 20 ++ [93] ++ [] ++ [62] ++
  s_ "<" ++ s_ "r" ++ [] ++ s_ ">" ++ laugh b 20 ++ s_ "</" ++ s_ "r" ++ s_ ">".

(* the declarations and the events *)
Fixpoint ldecls (b i k : nat) : list decl := match k with O => [] | S k' => DEntity false [letter i] (laugh b i) :: ldecls b (S i) k' end.
Fixpoint ldevents (b i k : nat) : list event :=
  match k with O => [] | S k' => EEntityDecl (utf8 [letter i]) InternalGeneralEntity [] [] (utf8 (laugh b i)) :: ldevents b (S i) k' end.
Fixpoint times (b : nat) (x : list event) (e : event) : list event := match b with O => [] | S b' => x ++ e :: times b' x e end.
Fixpoint levents (b i : nat) : list event := match i with O => [] | S j => times b (levents b j) (EReference (utf8 [letter j])) end.

Section B.
Variable E : env.
Hypothesis OK : env_ok E.

Lemma nc_letter : forall i, (i < 20)%nat -> ncname E [letter i].
Proof.
  intros i Hi. unfold ncname, letter. split; [split; [|constructor]|].
  - unfold name_start. rewrite (ok_letter E OK) by lia. do 20 (destruct i; [reflexivity|]). lia.
  - split; [|cbn; lia]. constructor; [|constructor]. do 20 (destruct i; [reflexivity|]). lia.
Qed.
Lemma lit_refs : forall b i, (i < 20)%nat -> entlit E 39 (refs b i) (refs b i).
Proof. induction b; intros i Hi; cbn [refs]; [constructor|]. apply en_bypass; [apply nc_letter; auto|auto]. Qed.
Lemma lit_laugh : forall b i, (i <= 20)%nat -> entlit E 39 (laugh b i) (laugh b i).
Proof. intros b [|i] Hi; cbn [laugh]; [constructor|]. apply lit_refs. lia. Qed.
Lemma laughs_subset : forall b k i, (i + k <= 20)%nat -> subset E (laughs b i k) (ldecls b i k) (ldevents b i k).
Proof.
  intros b. induction k; intros i Hi; cbn [laughs ldecls ldevents]; [constructor|].
  apply su_general; try discriminate; auto; try (constructor; fail); try (repeat constructor; fail).
  - apply nc_letter; lia.
  - apply lit_laugh; lia.
  - apply IHk. lia.
Qed.
Lemma ldecls_entities : forall b k i n, In n (map fst (entities (ldecls b i k))) -> exists j, (i <= j < i + k)%nat /\ n = [letter j].
Proof.
  intros b. induction k; intros i n Hn; cbn in Hn; [contradiction|]. destruct Hn as [<-|Hn]; [exists i; split; [lia|reflexivity]|].
  destruct (IHk _ _ Hn) as (j & Hj & ->). exists j. split; [lia|reflexivity].
Qed.
Lemma ldecls_in : forall b k i j, (i <= j < i + k)%nat -> In ([letter j], laugh b j) (entities (ldecls b i k)).
Proof.
  intros b. induction k; intros i j Hj; [lia|]. cbn. destruct (Nat.eq_dec i j) as [->|]; [left; reflexivity|]. right. apply IHk. lia.
Qed.
Lemma ldecls_declared : forall b k i, declared (ldecls b i k) = [].
Proof. intros b. induction k; intros i; cbn; auto. Qed.
Lemma ldecls_fine : forall b, fine (ldecls b 0 20).
Proof.
  intros b. split; [|split].
  - assert (G : forall k i, NoDup (map fst (entities (ldecls b i k)))).
    { induction k; intros i; cbn; [constructor|]. constructor; [|apply IHk]. intros Hi. destruct (ldecls_entities _ _ _ _ Hi) as (j & Hj & He).
      inversion He as [He']. unfold letter in He'. lia. }
    apply G.
  - intros n Hn. destruct (ldecls_entities _ _ _ _ Hn) as (j & _ & ->). intros Hc. repeat (destruct Hc as [Hc|Hc]; [discriminate Hc|]). exact Hc.
  - rewrite ldecls_declared. constructor.
Qed.
Lemma refs_content : forall b ds j k live, In ([letter j], laugh b j) (entities ds) ->
  dcontent E ds k false [] (laugh b j) (levents b j) [] ->
  forall m, dcontent E ds (S k) live [] (refs m j) (times m (levents b j) (EReference (utf8 [letter j]))) [].
Proof.
  intros b ds j k live Hi Hc. induction m; cbn [refs times]; [constructor|].
  eapply dc_entity; eauto. constructor.
Qed.
Lemma laugh_content : forall b i k live, (i <= k <= 20)%nat -> dcontent E (ldecls b 0 20) k live [] (laugh b i) (levents b i) [].
Proof.
  intros b. induction i; intros k live Hk; cbn [laugh levents]; [constructor|]. destruct k as [|k]; [lia|].
  apply refs_content. apply ldecls_in; lia. apply IHi. lia.
Qed.
Lemma times_length : forall m x e, List.length (times m x e) = (m * S (List.length x))%nat.
Proof. induction m; intros; cbn [times]; auto. rewrite app_length. cbn [List.length]. rewrite IHm. lia. Qed.
Lemma levents_length : forall b i, Z.of_nat b ^ Z.of_nat i <= Z.of_nat (List.length (levents b i)) + (if Nat.eqb i 0 then 1 else 0).
Proof.
  intros b. induction i; [cbn; lia|]. cbn [levents Nat.eqb]. rewrite times_length. rewrite Nat2Z.inj_succ, Z.pow_succ_r by lia.
  destruct (Nat.eqb i 0); nia.
Qed.
Lemma blowup_document : forall b,
  ddocument E (blowup b) {| di_version := []; di_encoding := None; di_standalone := None |} (ldecls b 0 20)
    ([] ++ (EInternalSubset (utf8 (s_ "r")) [] [] :: ldevents b 0 20 ++ [EExternalSubset (utf8 (s_ "r")) [] []]) ++ [] ++
     ([EStartElement (utf8 (s_ "r")) [] [] (map Some []) (reported (ldecls b 0 20) (utf8 (s_ "r")) [])] ++ levents b 20 ++ [EEndElement (utf8 (s_ "r")) [] []]) ++ []) [].
Proof.
  intros b. assert (Hr : ncname E (s_ "r")) by (apply (nc_letter 17); lia).
  assert (Hq : qnamed E [] (s_ "r")) by (split; [left; reflexivity|exact Hr]).
  replace (blowup b) with ([] ++ (s_ "<!DOCTYPE" ++ [32] ++ qname [] (s_ "r") ++ [32] ++ [91] ++ laughs b 0 20 ++ [93] ++ [] ++ [62]) ++ [] ++
    (s_ "<" ++ qname [] (s_ "r") ++ [] ++ s_ ">" ++ laugh b 20 ++ s_ "</" ++ qname [] (s_ "r") ++ s_ ">") ++ []).
  2: { unfold blowup, qname. rewrite !app_nil_r, <- !app_assoc. reflexivity. }
  apply dd_plain.
  - constructor.
  - apply (dt_subset E [32] [] (s_ "r")).
    + discriminate.
    + constructor; [reflexivity|constructor].
    + split; [exact Hq|cbn; lia].
    + constructor; [reflexivity|constructor].
    + apply laughs_subset; lia.
    + constructor.
  - constructor.
  - apply (de_full E _ _ _ [] [] (s_ "r") [] [] [] [] (laugh b 20) (levents b 20) []).
    + exact Hq.
    + constructor. constructor.
    + split; intros; contradiction.
    + split; reflexivity.
    + apply laugh_content. unfold max_entity_depth. lia.
    + intros x Hx. cbn [laugh] in Hx. destruct b; discriminate Hx.
  - constructor.
  - apply ldecls_fine.
  - intros r Hx. discriminate Hx.
Qed.
End B.

(* ---- lengths ---- *)
Definition ascii (l : list Z) : Prop := Forall (fun c => 0 <= c < 128) l.
Ltac asc := repeat (first [apply Forall_app; split | apply Forall_nil | assumption | (apply Forall_cons; [lia|])]).
Lemma ascii_s : forall x, forallb (fun c => (0 <=? c) && (c <? 128)) (s_ x) = true -> ascii (s_ x).
Proof. intros x Hx. apply Forall_forall. intros c Hc. rewrite forallb_forall in Hx. specialize (Hx _ Hc). lia. Qed.
Lemma ascii_refs : forall b i, (i < 20)%nat -> ascii (refs b i).
Proof. induction b; intros i Hi; cbn [refs]; [constructor|]. unfold letter. repeat (apply Forall_cons; [lia|]). apply IHb. auto. Qed.
Lemma ascii_laugh : forall b i, (i <= 20)%nat -> ascii (laugh b i).
Proof. intros b [|i] Hi; [constructor|]. apply ascii_refs. lia. Qed.
Lemma ascii_laughs : forall b k i, (i + k <= 20)%nat -> ascii (laughs b i k).
Proof.
  intros b. induction k; intros i Hi; cbn [laughs]; [constructor|]. unfold letter.
  apply Forall_app; split; [apply ascii_s; reflexivity|]. repeat (apply Forall_cons; [lia|]).
  apply Forall_app; split; [apply ascii_laugh; lia|]. repeat (apply Forall_cons; [lia|]). apply IHk. lia.
Qed.
Lemma ascii_blowup : forall b, ascii (blowup b).
Proof.
  intros b. unfold blowup, ascii. repeat (first [(apply ascii_laughs; lia) | (apply ascii_laugh; lia) | apply Forall_app; split | apply Forall_nil | (apply ascii_s; reflexivity)
    | (apply Forall_cons; [lia|])]).
Qed.
Lemma refs_length : forall b i, List.length (refs b i) = (3 * b)%nat.
Proof. induction b; intros i; cbn [refs List.length app]; auto. rewrite IHb. lia. Qed.
Lemma laugh_length : forall b i, (List.length (laugh b i) <= 3 * b)%nat.
Proof. intros b [|i]; cbn [laugh]; [cbn; lia|]. rewrite refs_length. lia. Qed.
Lemma laughs_length : forall b k i, (List.length (laughs b i k) <= k * (3 * b + 14))%nat.
Proof.
  intros b. induction k; intros i; cbn [laughs]; [cbn; lia|]. pose proof (IHk (S i)). pose proof (laugh_length b i).
  rewrite !app_length. change (List.length (s_ "<!ENTITY")) with 8%nat. cbn [List.length]. lia.
Qed.
Lemma blowup_length : forall b, Z.of_nat (List.length (blowup b)) <= 63 * Z.of_nat b + 310.
Proof.
  intros b. unfold blowup. pose proof (laughs_length b 20 0). pose proof (laugh_length b 20). rewrite !app_length.
  change (List.length (s_ "<!DOCTYPE")) with 9%nat. change (List.length (s_ "r")) with 1%nat. change (List.length (s_ "<")) with 1%nat.
  change (List.length (s_ ">")) with 1%nat. change (List.length (s_ "</")) with 2%nat. cbn [List.length]. lia.
Qed.

Lemma same_count : forall A B (R : A -> B -> Prop) l l', Forall2 R l l' -> List.length l = List.length l'.
Proof. intros A B R l l' Hf. induction Hf; cbn [List.length]; congruence. Qed.
(* the document is accepted, and reported at that length *)
Lemma blowup_reported : forall E, env_ok E -> forall S (H : handler S) known, remembers H known ->
  forall b h, (forall n, known h n = None) -> exists N, forall n, (N <= n)%nat ->
  exists s, Parse E S H n h (blowup b) = (Ret tt, s) /\ Z.of_nat b ^ 20 <= Z.of_nat (List.length (tr s)).
Proof.
  intros E OK S H known Hr b h Hk.
  destruct (ddocument_events E OK S H known Hr _ _ _ _ _ (blowup_document E OK b)) as [N HN]. { split; [constructor|intros []]. }
  exists N. intros n Hn. destruct (HN [] n h (or_introl eq_refl) Hn (fun m _ => Hk (utf8 m))) as (evs' & s & Hs & Hp & Ht).
  rewrite utf8_ascii in Hp by apply ascii_blowup. exists s. split; [exact Hp|].
  pose proof (levents_length b 20) as Hl. cbn [Nat.eqb] in Hl. change (Z.of_nat 20) with 20 in Hl.
  assert (Hlen : List.length (rev (map fst (tr s))) = List.length (tr s)) by (rewrite rev_length, map_length; reflexivity).
  rewrite Ht in Hlen. apply same_count in Hs. rewrite !app_length in Hs. cbn [List.length] in Hs, Hlen. rewrite !app_length in Hlen, Hs. cbn [List.length] in Hlen, Hs.
  rewrite <- Hlen. lia.
Qed.
