(* What is written for an element tree is well nested, and its header. *)
From Verif Require Import Base Utf8 Utf8Proofs Escape XmlSpec EscapeProofs Scan Heap Dump Xml XmlDump Nested Grammar DocComplete.

Lemma nested_app a : nested a -> forall b, nested b -> nested (a ++ b).
Proof.
  induction 1 as [|c s H1 H2 IH|b0 s H1 H2 IH|n at_ s H1 H2 H3 IH|n at_ b0 s H1 H2 H3 IH1 H4 IH]; intros b B; cbn [app]; [exact B|..].
  - constructor; auto.
  - rewrite <- !app_assoc. apply ne_comment; auto.
  - rewrite <- !app_assoc. apply ne_empty; auto.
  - rewrite <- !app_assoc. apply ne_elem; auto.
Qed.
Lemma nested_data s : ~ In 60 s -> nested s.
Proof. induction s as [|c s IH]; intros H; constructor; [intros ->; apply H; left; reflexivity|]. apply IH. intros X. apply H. right. exact X. Qed.
Lemma ref_body_no (F : Z -> Prop) b : ref_body b -> (forall c, F c -> c = 60 \/ c = 34) -> forall c, In c b -> ~ F c.
Proof.
  intros H HF c Hc Fc. apply HF in Fc. destruct H as [| | |d [_ Hd]|d [_ Hd]].
  1-3: vm_compute in Hc; lia.
  - destruct Hc as [Hc|Hc]; [lia|]. rewrite Forall_forall in Hd. apply Hd in Hc. unfold dec_val in Hc. destruct Fc; subst c; apply Hc; reflexivity.
  - destruct Hc as [Hc|[Hc|Hc]]; [lia|lia|]. rewrite Forall_forall in Hd. apply Hd in Hc. unfold hex_val in Hc. destruct Fc; subst c; apply Hc; reflexivity.
Qed.
Lemma no_raw_free F s : no_raw_markup F s -> forall G : Z -> Prop, (forall c, G c -> F c) -> (forall c, G c -> c = 60 \/ c = 34) ->
  forall c, In c s -> ~ G c.
Proof.
  induction 1 as [|c s H1 H2 H3 IH|b s H1 H2 IH]; intros G GF G2 x Hx; [destruct Hx|..].
  - destruct Hx as [<-|Hx]; [auto|eauto].
  - destruct Hx as [<-|Hx]; [intros X; apply G2 in X; lia|]. apply in_app_or in Hx as [Hx|[<-|Hx]]; [|intros X; apply G2 in X; lia|eauto].
    eapply ref_body_no; eauto.
Qed.
Lemma escaped_text s : bytes_ok s -> ~ In 60 (escapeText s false).
Proof.
  intros B H. refine (no_raw_free _ _ (escapeText_no_raw_markup s false B) (fun c => c = 60) _ _ _ H eq_refl); [|tauto].
  intros c ->. unfold text_forbidden. tauto.
Qed.
Lemma escaped_attr s : bytes_ok s -> ~ In 60 (escapeAttrValue s) /\ ~ In 34 (escapeAttrValue s).
Proof.
  intros B. split; intros H.
  - refine (no_raw_free _ _ (escapeAttr_no_raw_markup s B) (fun c => c = 60) _ _ _ H eq_refl); [|tauto].
    intros c ->. unfold attr_forbidden. tauto.
  - refine (no_raw_free _ _ (escapeAttr_no_raw_markup s B) (fun c => c = 34) _ _ _ H eq_refl); [|tauto].
    intros c ->. unfold attr_forbidden. tauto.
Qed.

Lemma tag_atts_app a b : tag_atts a -> tag_atts b -> tag_atts (a ++ b).
Proof. intros A B. induction A as [|n q v r H1 H2 H3 H4 H5 IH]; [exact B|]. rewrite <- !app_assoc. apply ta_cons; assumption. Qed.
Lemma att_nested a : tag_name (fst a) -> bytes_ok (snd a) -> tag_atts (att_text a).
Proof.
  intros N B. unfold att_text. destruct (escaped_attr _ B) as [H1 H2].
  pose proof (ta_cons (fst a) 34 (escapeAttrValue (snd a)) [] N (or_introl eq_refl) H2 H1 ta_nil) as X. exact X.
Qed.
Lemma atts_nested l : Forall (fun a : str * str => tag_name (fst a) /\ bytes_ok (snd a)) l -> tag_atts (flat_map att_text l).
Proof. induction 1 as [|a l [H1 H2] H3 IH]; [constructor|]. cbn [flat_map]. apply tag_atts_app; [apply att_nested; assumption|exact IH]. Qed.
Lemma quoted_any u : ~ In 60 u -> exists q v, (q = 34 \/ q = 39) /\ ~ In q v /\ ~ In 60 v /\ dumpQuotedString u = [q] ++ v ++ [q].
Proof.
  intros H. unfold dumpQuotedString. destruct (has_byte 34 u) eqn:E1; cbn [negb].
  - destruct (has_byte 39 u) eqn:E2; cbn [negb].
    + exists 34, (filter (fun b => negb (b =? 34)) u). split; [auto|]. split; [|split; [|reflexivity]]; intros X; apply filter_In in X as [X1 X2]; [discriminate|auto].
    + exists 39, u. apply has_byte_false in E2. auto.
  - exists 34, u. apply has_byte_false in E1. auto.
Qed.
Lemma def_nested d : plain_def d -> tag_atts (ns_text d).
Proof.
  destruct d as [p u]. intros [P U]. cbn [fst snd] in *. unfold ns_text. destruct u as [|b u]; [destruct p; constructor|].
  destruct (quoted_any _ U) as (q & v & Hq & N1 & N2 & Eq). rewrite Eq.
  assert (K : forall n, tag_name n -> tag_atts (s_ " " ++ n ++ s_ "=" ++ [q] ++ v ++ [q])).
  { intros n Hn. pose proof (ta_cons n q v [] Hn Hq N1 N2 ta_nil) as X. exact X. }
  destruct p as [|c p].
  - apply (K (s_ "xmlns")). split; [discriminate|]. repeat constructor.
  - destruct P as [P|P]; [discriminate|].
    specialize (K (s_ "xmlns:" ++ c :: p)). rewrite <- app_assoc in K. apply K. split; [discriminate|]. apply Forall_app. split; [repeat constructor|apply P].
Qed.
Lemma defs_nested l : Forall plain_def l -> tag_atts (flat_map ns_text l).
Proof. induction 1; [constructor|]. cbn [flat_map]. apply tag_atts_app; [apply def_nested; assumption|assumption]. Qed.
Lemma colon_name p nm : tag_name p -> tag_name nm -> tag_name (p ++ s_ ":" ++ nm).
Proof.
  intros [P1 P2] [N1 N2]. split; [destruct p; [contradiction|discriminate]|]. apply Forall_app. split; [exact P2|]. constructor; [reflexivity|exact N2].
Qed.
Lemma quoted_tag ns nm : tag_name nm -> (match ns with Some (p, _) => p = [] \/ tag_name p | None => True end) -> tag_name (quoted_name ns nm).
Proof.
  intros N P. destruct ns as [[p u]|]; [|exact N]. cbn. destruct p; [exact N|]. destruct P as [P|P]; [discriminate|]. apply (colon_name (z :: p)); assumption.
Qed.

Lemma nested_text x : plain x -> nested (node_text x).
Proof.
  induction x as [nm ns defs atts kids IH|s|s|t d|nm] using xnode_rec'; intros P; cbn [node_text].
  - destruct P as (P1 & P2 & P3 & P4 & P5). pose proof (quoted_tag _ _ P1 P2) as Q.
    assert (A : tag_atts (flat_map ns_text defs ++ flat_map att_text atts)) by (apply tag_atts_app; [apply defs_nested|apply atts_nested]; assumption).
    assert (K : nested (flat_map node_text kids)).
    { clear - IH P5. induction IH as [|x l H1 H2 IH]; [constructor|]. destruct P5 as [P5 P6]. cbn [flat_map]. apply nested_app; auto. }
    destruct kids as [|k kids].
    + unfold tag_text. rewrite <- !app_assoc. pose proof (ne_empty _ _ [] Q A ne_nil) as X. rewrite <- !app_assoc in X. exact X.
    + unfold tag_text. rewrite <- !app_assoc. pose proof (ne_elem _ _ _ [] Q A K ne_nil) as X. rewrite <- !app_assoc in X. exact X.
  - apply nested_data, escaped_text, P.
  - pose proof (ne_comment s [] P ne_nil) as X. exact X.
  - destruct P.
  - apply nested_data. intros H. apply in_app_or in H as [H|H]; [vm_compute in H; lia|]. apply in_app_or in H as [H|H]; [auto|vm_compute in H; lia].
Qed.

(* ---- the header ---- *)
Lemma header_text v e s : exists sv se ss,
  dumpDocContent v e s = s_ "<?xml" ++ sv ++ se ++ ss ++ s_ "?>" ++ [10] /\
  pseudo "version" (match v with [] => s_ "1.0" | _ => v end) sv /\
  (e = [] -> se = []) /\ (e <> [] -> pseudo "encoding" e se) /\
  (s = StandaloneExplicitYes -> pseudo "standalone" (s_ "yes") ss) /\
  (s = StandaloneExplicitNo -> pseudo "standalone" (s_ "no") ss) /\
  (s <> StandaloneExplicitYes -> s <> StandaloneExplicitNo -> ss = []).
Proof.
  assert (P : forall name w, pseudo name w (s_ " " ++ s_ name ++ s_ "=""" ++ w ++ s_ """")).
  { intros name w. pose proof (ps name w [32] [] [] 34) as X. apply X; try (constructor; fail); [discriminate|repeat constructor|auto]. }
  exists (s_ " version=""" ++ (match v with [] => s_ "1.0" | _ => v end) ++ s_ """"),
    (match e with [] => [] | _ => s_ " encoding=""" ++ e ++ s_ """" end),
    (if s =? StandaloneExplicitNo then s_ " standalone=""no""" else if s =? StandaloneExplicitYes then s_ " standalone=""yes""" else []).
  split.
  - unfold dumpDocContent. change (s_ "<?xml version=""") with (s_ "<?xml" ++ s_ " version="""). rewrite <- !app_assoc. reflexivity.
  - split; [exact (P "version"%string _)|]. split; [intros ->; reflexivity|]. split.
    { intros He. destruct e; [contradiction|]. exact (P "encoding"%string _). }
    split; [intros ->; exact (P "standalone"%string _)|]. split; [intros ->; exact (P "standalone"%string _)|].
    intros H1 H2. destruct (Z.eqb_spec s StandaloneExplicitNo); [contradiction|]. destruct (Z.eqb_spec s StandaloneExplicitYes); [contradiction|]. reflexivity.
Qed.

Definition enc_of (e : str) : option str := match e with [] => None | _ => Some e end.
Lemma header_decl v e sa : v = [] \/ version_num v -> e = [] \/ enc_name e ->
  exists hd, dumpDocContent v e (sa_code sa) = hd ++ [10] /\ xml_decl hd (match v with [] => s_ "1.0" | _ => v end) (enc_of e) sa.
Proof.
  intros V En. destruct (header_text v e (sa_code sa)) as (sv & se & ss & Eq & Pv & E0 & E1 & S1 & S0 & Sn).
  exists (s_ "<?xml" ++ sv ++ se ++ ss ++ s_ "?>"). split; [rewrite Eq, <- !app_assoc; reflexivity|]. apply xd.
  - destruct V as [->|V]; [|destruct v; [|exact V]]; exists 49, 48, []; repeat split; constructor.
  - exact Pv.
  - destruct e as [|b e]; cbn [enc_of]; [auto|]. destruct En as [En|En]; [discriminate|]. split; [exact En|apply E1; discriminate].
  - destruct sa as [[|]|]; [apply S1|apply S0|apply Sn]; discriminate || reflexivity.
Qed.
