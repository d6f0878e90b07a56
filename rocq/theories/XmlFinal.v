(* Writing and reading back whole documents. *)
From Verif Require Import Base Utf8 Utf8Proofs Escape EscapeProofs Scan Parser LexProofs Complete DocComplete
  Heap Dump TreeBuilder TreeShape Xml XmlDump Mirror Tidy XmlBuild XmlTree XmlParse XmlRound NestedProofs.
From Verif Require Import XmlSpec Grammar.

Lemma utf8_length rs : (List.length rs <= List.length (utf8 rs))%nat.
Proof.
  induction rs as [|r rs IH]; [cbn; lia|]. rewrite utf8_cons, app_length. unfold utf8 at 1. cbn [flat_map List.length].
  rewrite app_nil_r. pose proof (encode_nonempty r). destruct (encode_rune r); [contradiction|cbn [List.length]; lia].
Qed.

(* ---- merging texts does not change what is written ---- *)
Lemma escapeText_app rs s nl : Forall (fun r => valid_rune r = true) rs -> escapeText (utf8 rs ++ s) nl = escapeText (utf8 rs) nl ++ escapeText s nl.
Proof.
  intros V. unfold escapeText. rewrite chunks_utf8 by exact V. induction V as [|r rs Hr V IH]; [reflexivity|].
  rewrite utf8_cons. unfold utf8 at 1. cbn [flat_map]. rewrite app_nil_r, <- app_assoc, chunks_encode by exact Hr. cbn [flat_map map].
  rewrite IH, app_assoc. reflexivity.
Qed.
Lemma norms_nonempty l : no_hollows l -> norms l = [] -> l = [].
Proof.
  destruct l as [|x l]; [auto|]. intros [H _] Eq. cbn [norms fold_right] in Eq. destruct x; try discriminate.
  cbn [norm glue] in Eq. cbn in H. destruct s as [|b s]; [contradiction|]. destruct (fold_right _ _ _) as [|[]]; discriminate.
Qed.
Lemma norm_text E :
  (forall ns x, tidy E ns x -> no_hollow x -> node_text (norm x) = node_text x) /\
  (forall ns l, tidies E ns l -> no_hollows l -> flat_map node_text (norms l) = flat_map node_text l).
Proof.
  apply tidy_tidies; try reflexivity.
  - intros ns p l u defs at_ kids Q D A Nd R T IH H. cbn [no_hollow] in H. fold (no_hollows kids) in H.
    cbn [norm node_text]. fold (norms kids). specialize (IH H).
    destruct kids as [|k kids]; [reflexivity|]. destruct (norms (k :: kids)) as [|y ys] eqn:Ey; [apply norms_nonempty in Ey; [discriminate|exact H]|].
    rewrite IH. reflexivity.
  - intros ns x xs Tx IHx Ts IHs [H1 H2]. cbn [norms fold_right]. fold (norms xs). specialize (IHx H1). specialize (IHs H2). cbn [flat_map].
    rewrite <- IHx, <- IHs. destruct Tx as [ns rs L|ns rs Ct Eo|ns p l u defs at_ kids Q D A Nd R T]; try reflexivity.
    cbn [norm glue]. destruct (utf8 rs) as [|b t] eqn:U; [reflexivity|]. rewrite <- U in *.
    destruct (norms xs) as [|[] r]; try reflexivity. cbn [flat_map node_text]. rewrite escapeText_app by (apply legals_valid, L). rewrite <- app_assoc. reflexivity.
Qed.
Lemma lines_norm E ns l : tidies E ns l -> no_hollows l -> Forall (fun x => forall s, x <> XText s) l -> lines (norms l) = lines l.
Proof.
  induction l as [|x l IH]; intros T H F; [reflexivity|]. inversion T as [|? ? ? Tx Tl]; subst. inversion F as [|? ? Fx Fl]; subst. destruct H as [H1 H2].
  cbn [norms fold_right]. fold (norms l). pose proof (proj1 (norm_text E) _ _ Tx H1) as Nx.
  destruct x as [nm sp defs at_ kids|s|s|t d|nm]; try (unfold lines in *; cbn [norm glue flat_map] in *; rewrite (IH Tl H2 Fl); try rewrite Nx; reflexivity).
  exfalso. apply (Fx s). reflexivity.
Qed.

Lemma header_ascii v e s : v = [] \/ version_num v -> e = [] \/ enc_name e -> Forall (fun c => 0 <= c < 128) (dumpDocContent v e s).
Proof.
  intros V En.
  assert (A : forall x, forallb (fun c => (0 <=? c) && (c <? 128)) (s_ x) = true -> Forall (fun c => 0 <= c < 128) (s_ x)).
  { intros x H. apply Forall_forall. rewrite forallb_forall in H. intros c Hc. apply H in Hc. lia. }
  unfold dumpDocContent. repeat (apply Forall_app; split); try (apply A; reflexivity).
  - destruct V as [->|(a & b & r & -> & Ha & Hb & Hr)]; [apply A; reflexivity|]. unfold digit10 in *.
    constructor; [lia|]. constructor; [lia|]. constructor; [lia|]. eapply Forall_impl; [|exact Hr]. cbv beta. intros c Hc. lia.
  - destruct En as [->|(a & r & -> & Ha & Hr)]; [constructor|]. repeat (apply Forall_app; split); try (apply A; reflexivity).
    unfold alpha, digit10 in *. constructor; [lia|]. eapply Forall_impl; [|exact Hr]. cbv beta. intros c Hc. lia.
  - destruct (s =? StandaloneExplicitNo); [apply A; reflexivity|]. destruct (s =? StandaloneExplicitYes); [apply A; reflexivity|constructor].
  - constructor; [lia|constructor].
Qed.

(* ---- the round trip ---- *)
Section Final.
Variable E : env.
Hypothesis OK : env_ok E.

Definition version_of (v : str) : str := match v with [] => s_ "1.0" | _ => v end.

Theorem round_trip h d v e sa l : document_is h d v e (sa_code sa) l -> tidy_document E l -> writables l ->
  (v = [] \/ version_num v) -> (e = [] \/ (enc_name e /\ utf8_name e)) ->
  exists t, (forall k, (2 * xsizes l + 1 < k)%nat -> dumpDoc h k d = Ret t) /\ t = dumpDocContent v e (sa_code sa) ++ lines l /\
  exists m0, forall n m, (List.length t < n)%nat -> (m0 <= m)%nat ->
  exists s' p, Parse E tb (treeH m) n tb_init t = (Ret tt, s') /\ tb_doc (hs s') = Some p /\ wf (tb_heap (hs s')) /\
    document_is (tb_heap (hs s')) p (version_of v) e (sa_code sa) (norms l).
Proof.
  intros D T W V En. eexists. split; [intros k Hk; apply (dumpDoc_text _ _ _ _ _ _ D W k Hk)|]. split; [reflexivity|].
  destruct (header_decl v e sa V) as (hd & Eh & Xd); [tauto|].
  destruct (document_round E hd _ _ _ l Xd) as (src & evs & ds & Es & Dc & Once & M & Nt).
  - intros n Hn. destruct e as [|b e]; [discriminate|]. injection Hn as <-. destruct En as [En|[_ En]]; [discriminate|exact En].
  - exact T.
  - assert (Ah : Forall (fun c => 0 <= c < 128) (hd ++ [10])).
    { rewrite <- Eh. apply header_ascii; tauto. }
    rewrite (utf8_ascii _ Ah) in Es. fold (lines l). rewrite Eh, <- Es.
    exists (S (evs_len evs)). intros n m Hn Hm.
    destruct (parse_document E src _ evs ds (norms l) OK Dc Once M Nt [] n m) as (s' & p & Ps & Pd & Pw & Is).
    + left. reflexivity.
    + pose proof (utf8_length src). lia.
    + lia.
    + exists s', p. split; [exact Ps|]. split; [exact Pd|]. split; [exact Pw|]. destruct e; exact Is.
Qed.

Lemma document_nodes l : tidy_document E l -> Forall (fun x => forall s, x <> XText s) l.
Proof.
  intros (_ & c1 & nm & sp & defs & at_ & kids & c2 & -> & F1 & F2 & _). apply Forall_app. split; [|constructor; [discriminate|]].
  - eapply Forall_impl; [|exact F1]. intros x [s ->] t. discriminate.
  - eapply Forall_impl; [|exact F2]. intros x [s ->] t. discriminate.
Qed.
Lemma header_version v e s : dumpDocContent (version_of v) e s = dumpDocContent v e s.
Proof. destruct v; reflexivity. Qed.

(* write, read, write *)
Theorem stable h d v e sa l : document_is h d v e (sa_code sa) l -> tidy_document E l -> writables l ->
  no_hollows l -> writables (norms l) ->
  (v = [] \/ version_num v) -> (e = [] \/ (enc_name e /\ utf8_name e)) ->
  exists t, (forall k, (2 * xsizes l + 1 < k)%nat -> dumpDoc h k d = Ret t) /\
  exists m0, forall n m, (List.length t < n)%nat -> (m0 <= m)%nat ->
  exists s' p, Parse E tb (treeH m) n tb_init t = (Ret tt, s') /\ tb_doc (hs s') = Some p /\
    forall k, (2 * xsizes (norms l) + 1 < k)%nat -> dumpDoc (tb_heap (hs s')) k p = Ret t.
Proof.
  intros D T W Nh Wn V En. destruct (round_trip h d v e sa l D T W V En) as (t & Dt & Et & m0 & R).
  exists t. split; [exact Dt|]. exists m0. intros n m Hn Hm. destruct (R n m Hn Hm) as (s' & p & Ps & Pd & _ & Is).
  exists s', p. split; [exact Ps|]. split; [exact Pd|]. intros k Hk. rewrite (dumpDoc_text _ _ _ _ _ _ Is Wn k Hk). f_equal.
  rewrite Et, header_version. f_equal. apply (lines_norm E [] l); [apply T|exact Nh|apply document_nodes, T].
Qed.
End Final.
