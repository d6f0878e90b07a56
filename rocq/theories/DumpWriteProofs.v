(* Proofs about DumpWrite.v: what the serialiser does to any writer is to make
   a fixed sequence of calls, whose bytes together are the text of Dump.v. *)
From Verif Require Import Base Utf8 Utf8Proofs Escape Scan Heap Dump DumpWrite.
From Coq Require Import ZifyBool.

(* calls of which those after a failed one are not made *)
Fixpoint group {W} (wr : W -> str -> W * (nat * bool)) (l : list str) (s : sink W) : sink W :=
  match l with
  | [] => s
  | b :: l' =>
      let '(w, (n, e)) := wr (s_w s) b in
      let s' := Sink w (s_out s ++ firstn n b) (s_failed s || e) in
      if e then s' else group wr l' s'
  end.
Fixpoint play {W} (wr : W -> str -> W * (nat * bool)) (g : list (list str)) (s : sink W) : sink W :=
  match g with
  | [] => s
  | l :: g' => play wr g' (group wr l s)
  end.
Lemma play_app W (wr : W -> str -> W * (nat * bool)) g1 : forall g2 s, play wr (g1 ++ g2) s = play wr g2 (play wr g1 s).
Proof. induction g1 as [|l g1 IH]; intros g2 s; cbn [play app]; [reflexivity|apply IH]. Qed.
Definition flat (g : list (list str)) : str := concat (concat g).
Lemma flat_app g1 g2 : flat (g1 ++ g2) = flat g1 ++ flat g2.
Proof. unfold flat. rewrite !concat_app. reflexivity. Qed.
Lemma flat_one b : flat [[b]] = b.
Proof. unfold flat. cbn. rewrite !app_nil_r. reflexivity. Qed.

Definition poly (A : Type) := forall W, (W -> str -> W * (nat * bool)) -> OM W A.
Definition does {A} (m : poly A) (r : outcome herr A) (g : list (list str)) : Prop :=
  forall W wr s, m W wr s = (r, play wr g s).

Lemma does_ret A (a : A) : does (fun W _ => oret W a) (Ret a) [].
Proof. intros W wr s. reflexivity. Qed.
Lemma does_fail A e : does (fun W _ => @ofail W A e) (Fail e) [].
Proof. intros W wr s. reflexivity. Qed.
Lemma does_pan A : does (fun W _ => @opan W A) Pan [].
Proof. intros W wr s. reflexivity. Qed.
Lemma does_oof A : does (fun W _ => @ooof W A) Oof [].
Proof. intros W wr s. reflexivity. Qed.
Lemma does_say b : does (fun W wr => say W wr b) (Ret tt) [[b]].
Proof.
  intros W wr s. unfold say, put, obnd, oret. cbn [play group].
  destruct (wr (s_w s) b) as [w [n e]]. destruct e; reflexivity.
Qed.
Lemma does_bind A B (m : poly A) (k : A -> poly B) r g :
  does m r g ->
  match r with
  | Ret a => forall r2 g2, does (k a) r2 g2 -> does (fun W wr => obnd W (m W wr) (fun a => k a W wr)) r2 (g ++ g2)
  | Fail e => does (fun W wr => obnd W (m W wr) (fun a => k a W wr)) (Fail e) g
  | Pan => does (fun W wr => obnd W (m W wr) (fun a => k a W wr)) Pan g
  | Oof => does (fun W wr => obnd W (m W wr) (fun a => k a W wr)) Oof g
  end.
Proof.
  intro H. destruct r as [a|e| |].
  - intros r2 g2 H2 W wr s. unfold obnd. rewrite H, H2, play_app. reflexivity.
  - intros W wr s. unfold obnd. rewrite H. reflexivity.
  - intros W wr s. unfold obnd. rewrite H. reflexivity.
  - intros W wr s. unfold obnd. rewrite H. reflexivity.
Qed.
Lemma does_dropped A (m : poly A) r g : does m r g ->
  does (fun W wr => dropped W (m W wr)) (match r with Ret _ | Fail _ => Ret tt | Pan => Pan | Oof => Oof end) g.
Proof. intros H W wr s. unfold dropped. rewrite H. destruct r; reflexivity. Qed.

(* the nodes under attributes, and that they are texts and references: Dump.v
   leaves out what DumpNode writes for a declaration under an attribute that
   it refuses *)
Inductive value_node (h : heap) : ptr -> Prop :=
| vn_first a c p : hget h a = Some c -> (exists name ns, dat c = DAttr name ns) -> l_first (lk c) = Some p -> value_node h p
| vn_next q c p : value_node h q -> hget h q = Some c -> l_next (lk c) = Some p -> value_node h p.
Definition plain_values (h : heap) : Prop :=
  forall p c, value_node h p -> hget h p = Some c -> match dat c with DText _ | DRef _ => True | _ => False end.

Section Agree.
Variable h : heap.
(* a computation does something, and if [t] is a text then it ends normally
   and writes the text *)
Definition writes (m : poly unit) (t : outcome herr str) : Prop :=
  exists r g, does m r g /\ (plain_values h -> forall x, t = Ret x -> r = Ret tt /\ flat g = x).
Lemma w_ret : writes (fun W _ => oret W tt) (Ret []).
Proof. exists (Ret tt), []. split; [apply does_ret|]. intros _ x [= <-]. split; reflexivity. Qed.
Lemma w_say b : writes (fun W wr => say W wr b) (Ret b).
Proof. exists (Ret tt), [[b]]. split; [apply does_say|]. intros _ x [= <-]. split; [reflexivity|apply flat_one]. Qed.
Lemma w_fail e t : (forall x, t <> Ret x) -> writes (fun W _ => ofail W e) t.
Proof. intros N. exists (Fail e), []. split; [apply does_fail|]. intros _ x E. destruct (N x E). Qed.
Lemma w_pan t : (forall x, t <> Ret x) -> writes (fun W _ => opan W) t.
Proof. intros N. exists Pan, []. split; [apply does_pan|]. intros _ x E. destruct (N x E). Qed.
Lemma w_oof t : (forall x, t <> Ret x) -> writes (fun W _ => ooof W) t.
Proof. intros N. exists Oof, []. split; [apply does_oof|]. intros _ x E. destruct (N x E). Qed.
Lemma w_then m k t1 t2 : writes m t1 -> writes k t2 ->
  writes (fun W wr => obnd W (m W wr) (fun _ => k W wr)) (obind t1 (fun x => obind t2 (fun y => Ret (x ++ y)))).
Proof.
  intros (r1 & g1 & D1 & H1) (r2 & g2 & D2 & H2).
  pose proof (does_bind _ _ m (fun _ => k) r1 g1 D1) as B.
  destruct r1 as [[]|e| |].
  - exists r2, (g1 ++ g2). split; [exact (B r2 g2 D2)|]. intros PV x E.
    destruct t1 as [x1|?| |]; try discriminate. destruct t2 as [x2|?| |]; try discriminate. injection E as <-.
    destruct (H1 PV _ eq_refl) as [_ F1]. destruct (H2 PV _ eq_refl) as [F2 F3]. split; [exact F2|].
    rewrite flat_app, F1, F3. reflexivity.
  - exists (Fail e), g1. split; [exact B|]. intros PV x E. destruct t1 as [x1|?| |]; try discriminate.
    destruct (H1 PV _ eq_refl) as [F _]. discriminate.
  - exists Pan, g1. split; [exact B|]. intros PV x E. destruct t1 as [x1|?| |]; try discriminate.
    destruct (H1 PV _ eq_refl) as [F _]. discriminate.
  - exists Oof, g1. split; [exact B|]. intros PV x E. destruct t1 as [x1|?| |]; try discriminate.
    destruct (H1 PV _ eq_refl) as [F _]. discriminate.
Qed.
(* weaker text *)
Lemma w_weak m t t' : writes m t -> (forall x, t' = Ret x -> t = Ret x) -> writes m t'.
Proof. intros (r & g & D & H) K. exists r, g. split; [exact D|]. intros PV x E. apply (H PV), K, E. Qed.
Lemma w_then' m k x t : writes m (Ret x) -> writes k t ->
  writes (fun W wr => obnd W (m W wr) (fun _ => k W wr)) (obind t (fun y => Ret (x ++ y))).
Proof. intros H1 H2. exact (w_then m k (Ret x) t H1 H2). Qed.
Lemma w_and m k x y : writes m (Ret x) -> writes k (Ret y) ->
  writes (fun W wr => obnd W (m W wr) (fun _ => k W wr)) (Ret (x ++ y)).
Proof. intros H1 H2. exact (w_then m k (Ret x) (Ret y) H1 H2). Qed.
Lemma w_eq m x y : writes m (Ret x) -> x = y -> writes m (Ret y).
Proof. intros H <-. exact H. Qed.

(* the escaping loops *)
Fixpoint pieces (esc : Z -> nat -> option str) (l : list (Z * str)) (raw : str) : list str :=
  match l with
  | [] => [raw]
  | (r, b) :: l' =>
      match esc r (List.length b) with
      | None => pieces esc l' (raw ++ b)
      | Some x => raw :: x :: pieces esc l' []
      end
  end.
Lemma escape_runs esc : forall l raw W wr s, exists b, escape_loop W wr esc l raw s = (Ret b, group wr (pieces esc l raw) s).
Proof.
  induction l as [|[r b] l IH]; intros raw W wr s; cbn [escape_loop pieces].
  - unfold put_or, put, obnd, oret. cbn [group]. destruct (wr (s_w s) raw) as [w [n e]]. destruct e; eexists; reflexivity.
  - destruct (esc r (List.length b)) as [x|]; [|apply IH].
    unfold put_or at 1. unfold put, obnd. cbn [group]. destruct (wr (s_w s) raw) as [w [n e]].
    destruct e; [eexists; reflexivity|]. unfold put_or, put, obnd. cbn [s_w s_out s_failed].
    destruct (wr w x) as [w' [n' e']]. destruct e'; [eexists; reflexivity|]. apply IH.
Qed.
Lemma w_escape esc l : writes (fun W wr => dropped W (escape_loop W wr esc l [])) (Ret (concat (pieces esc l []))).
Proof.
  exists (Ret tt), [pieces esc l []]. split.
  - intros W wr s. unfold dropped. destruct (escape_runs esc l [] W wr s) as [b ->]. reflexivity.
  - intros _ x [= <-]. split; [reflexivity|]. unfold flat. cbn [concat]. rewrite app_nil_r. reflexivity.
Qed.
Lemma pieces_concat esc one : (forall r b, one (r, b) = match esc r (List.length b) with Some x => x | None => b end) ->
  forall l raw, concat (pieces esc l raw) = raw ++ flat_map one l.
Proof.
  intros H. induction l as [|[r b] l IH]; intros raw; cbn [pieces concat flat_map].
  - rewrite !app_nil_r. reflexivity.
  - rewrite H. destruct (esc r (List.length b)) as [x|]; cbn [concat]; rewrite IH.
    + reflexivity.
    + rewrite app_assoc. reflexivity.
Qed.
Ltac ifs := repeat match goal with |- context [if ?b then _ else _] => destruct b end.
Lemma attr_esc_one r b : esc_attr1 (r, b) = match attr_esc r (List.length b) with Some x => x | None => b end.
Proof. unfold esc_attr1, attr_esc. ifs; reflexivity. Qed.
Lemma text_esc_one nl r b : esc_text1 nl (r, b) = match text_esc nl r (List.length b) with Some x => x | None => b end.
Proof. unfold esc_text1, text_esc. ifs; reflexivity. Qed.
Lemma w_attr_value s : writes (fun W wr => dropped W (escapeAttrValueW W wr s)) (Ret (escapeAttrValue s)).
Proof.
  eapply w_eq; [apply w_escape|]. rewrite (pieces_concat _ _ attr_esc_one). reflexivity.
Qed.
Lemma w_text s nl : writes (fun W wr => dropped W (escapeTextW W wr s nl)) (Ret (escapeText s nl)).
Proof.
  eapply w_eq; [apply w_escape|]. rewrite (pieces_concat _ _ (text_esc_one nl)). reflexivity.
Qed.

(* quoted strings *)
Lemma w_quoted_loop : forall s raw, writes (fun W wr => quoted_loop W wr s raw) (Ret (raw ++ filter (fun b => negb (b =? 34)) s)).
Proof.
  induction s as [|c s IH]; intros raw; cbn [quoted_loop filter].
  - rewrite app_nil_r. destruct raw as [|x raw]; [apply w_ret|apply w_say].
  - destruct (c =? 34) eqn:E; cbn [negb].
    + apply w_and; [apply w_say|]. apply (IH []).
    + eapply w_eq; [apply IH|]. rewrite <- app_assoc. reflexivity.
Qed.
Lemma w_quoted s : writes (fun W wr => dumpQuotedStringW W wr s) (Ret (dumpQuotedString s)).
Proof.
  unfold dumpQuotedStringW, dumpQuotedString. destruct (negb (has_byte 34 s)); [|destruct (negb (has_byte 39 s))].
  - apply w_and; [apply w_say|]. apply w_and; apply w_say.
  - apply w_and; [apply w_say|]. apply w_and; apply w_say.
  - apply w_and; [apply w_say|]. apply w_and; [|apply w_say]. apply (w_quoted_loop s []).
Qed.
Lemma w_flush raw : writes (fun W wr => flush W wr raw) (Ret raw).
Proof. destruct raw; [apply w_ret|apply w_say]. Qed.
Lemma w_content_loop : forall s raw, writes (fun W wr => content_loop W wr s raw)
  (Ret (raw ++ flat_map (fun b => if b =? 34 then s_ "&quot;" else if b =? 37 then s_ "&#x25;" else [b]) s)).
Proof.
  induction s as [|c s IH]; intros raw; cbn [content_loop flat_map].
  - rewrite app_nil_r. apply w_flush.
  - destruct (c =? 34); [|destruct (c =? 37)].
    + apply w_and; [apply w_flush|]. apply w_and; [apply w_say|]. apply (IH []).
    + apply w_and; [apply w_flush|]. apply w_and; [apply w_say|]. apply (IH []).
    + eapply w_eq; [apply IH|]. rewrite <- app_assoc. reflexivity.
Qed.
Lemma w_content s : writes (fun W wr => dumpEntityContentW W wr s) (Ret (dumpEntityContent s)).
Proof.
  unfold dumpEntityContentW, dumpEntityContent. destruct (negb (has_byte 37 s)); [apply w_quoted|].
  apply w_and; [apply w_say|]. apply w_and; [|apply w_say]. apply (w_content_loop s []).
Qed.

(* one call after the other: the text is found by the proof *)
Ltac wstep := first [ apply w_say | apply w_ret | apply w_quoted | apply w_content | eapply w_and | eapply w_then' ].
Ltac wlit := eapply w_eq; [repeat wstep|cbn [app]; rewrite <- ?app_assoc, ?app_nil_r; reflexivity].

Lemma w_doc v e sa : writes (fun W wr => dumpDocContentW W wr v e sa) (Ret (dumpDocContent v e sa)).
Proof.
  unfold dumpDocContentW, dumpDocContent.
  destruct e as [|e0 e]; ifs; wlit.
Qed.
Lemma w_enum : forall l, writes (fun W wr => dumpEnumerationW W wr l) (Ret (dumpEnumeration l)).
Proof.
  induction l as [|x [|y l] IH].
  - apply w_say.
  - cbn [dumpEnumerationW dumpEnumeration]. apply w_and; apply w_say.
  - apply (w_and _ _ x); [apply w_say|]. apply (w_and _ _ (s_ " | ")); [apply w_say|]. exact IH.
Qed.
Lemma w_prefixed p n : writes (fun W wr => prefixedW W wr p n) (Ret (prefixed p n)).
Proof. unfold prefixedW, prefixed. destruct p; wlit. Qed.

(* content models *)
Lemma w_econt : forall e glob, writes (fun W wr => dumpElementContentW W wr e glob) (dumpElementContent e glob).
Proof.
  fix IH 1. intros [ct oc name prefix c1 c2] glob. cbn [dumpElementContentW dumpElementContent].
  assert (S : forall op isOr, writes
    (fun W wr => match c1 with
     | None => opan W
     | Some a => obnd W (dumpElementContentW W wr a ((ec_type a =? ctOr) || (ec_type a =? ctSeq))) (fun _ =>
         obnd W (say W wr op) (fun _ => match c2 with
         | None => opan W
         | Some b => dumpElementContentW W wr b
             (if isOr : bool then (ec_type b =? ctSeq) || ((ec_type b =? ctOr) && negb (ec_occur b =? ocOnce))
              else (ec_type b =? ctOr) || ((ec_type b =? ctSeq) && negb (ec_occur b =? ocOnce)))
         end))
     end)
    (match c1 with
     | None => Pan
     | Some a => obind (dumpElementContent a ((ec_type a =? ctOr) || (ec_type a =? ctSeq))) (fun x =>
         match c2 with
         | None => Pan
         | Some b => obind (dumpElementContent b
             (if isOr then (ec_type b =? ctSeq) || ((ec_type b =? ctOr) && negb (ec_occur b =? ocOnce))
              else (ec_type b =? ctOr) || ((ec_type b =? ctSeq) && negb (ec_occur b =? ocOnce)))) (fun y => Ret (x ++ op ++ y))
         end)
     end)).
  { intros op isOr. destruct c1 as [a|]; [|apply w_pan; discriminate].
    assert (Wa := IH a). destruct c2 as [b|].
    - assert (Wb := IH b). eapply w_weak; [eapply w_then; [apply Wa|eapply w_then'; [apply w_say|apply Wb]]|].
      intros x. destruct (dumpElementContent a _) as [xa|?| |]; cbn [obind]; try discriminate.
      destruct (dumpElementContent b _) as [xb|?| |]; cbn [obind]; try discriminate. exact (fun H => H).
    - eapply w_weak; [eapply w_then; [apply Wa|eapply w_then; [apply w_say|apply (w_pan Pan); discriminate]]|].
      intros x. destruct (dumpElementContent a _) as [xa|?| |]; cbn [obind]; discriminate. }
  clear IH.
  assert (B : writes (fun W wr => if glob then say W wr (s_ "(") else oret W tt) (Ret (if glob then s_ "(" else []))).
  { destruct glob; [apply w_say|apply w_ret]. }
  assert (C : writes (fun W wr => if glob then say W wr (s_ ")") else oret W tt) (Ret (if glob then s_ ")" else []))).
  { destruct glob; [apply w_say|apply w_ret]. }
  assert (O : writes (fun W wr => if oc =? ocOpt then say W wr (s_ "?") else if oc =? ocMult then say W wr (s_ "*")
       else if oc =? ocPlus then say W wr (s_ "+") else oret W tt) (Ret (occurSuffix oc))).
  { unfold occurSuffix. ifs; first [apply w_say|apply w_ret]. }
  match goal with |- writes _ (obind ?t _) =>
    eapply w_weak; [eapply w_then'; [exact B|eapply (w_then _ _ t); [|exact (w_and _ _ _ _ C O)]]|]
  end.
  - destruct (ct =? ctPCDATA); [apply w_say|]. destruct (ct =? ctElement); [apply w_prefixed|].
    destruct (ct =? ctSeq); [apply (S (s_ " , ") false)|]. destruct (ct =? ctOr); [apply (S (s_ " | ") true)|].
    apply w_fail; discriminate.
  - intros x.
    match goal with |- obind ?t _ = _ -> _ => destruct t as [y|?| |]; cbn [obind]; try discriminate end.
    exact (fun H => H).
Qed.

Lemma w_entity name typ ext sys content orig :
  writes (fun W wr => dumpEntityDeclW W wr name typ ext sys content orig) (dumpEntityDecl name typ ext sys content orig).
Proof.
  unfold dumpEntityDeclW, dumpEntityDecl.
  assert (V : writes (fun W wr => match orig with [] => dumpEntityContentW W wr content | _ => dumpQuotedStringW W wr orig end)
                (Ret (match orig with [] => dumpEntityContent content | _ => dumpQuotedString orig end))).
  { destruct orig; [apply w_content|apply w_quoted]. }
  destruct (typ =? 1); [|destruct ((typ =? 2) || (typ =? 3)); [|destruct (typ =? 4); [|destruct (typ =? 5)]]].
  - apply w_and; [apply w_say|]. apply w_and; [apply w_say|]. apply w_and; [apply w_say|]. apply w_and; [exact V|apply w_say].
  - destruct ext as [|e0 ext]; destruct (typ =? 3); try destruct content as [|c0 content]; try destruct orig as [|o0 orig]; wlit.
  - apply w_and; [apply w_say|]. apply w_and; [apply w_say|]. apply w_and; [apply w_say|]. apply w_and; [exact V|apply w_say].
  - destruct ext as [|e0 ext]; wlit.
  - apply w_fail; discriminate.
Qed.
Lemma w_elemdecl name prefix typ content :
  writes (fun W wr => dumpElementDeclW W wr name prefix typ content) (dumpElementDecl name prefix typ content).
Proof.
  unfold dumpElementDeclW, dumpElementDecl.
  assert (P : writes (fun W wr => obnd W (say W wr (s_ "<!ELEMENT ")) (fun _ => prefixedW W wr prefix name)) (Ret (s_ "<!ELEMENT " ++ prefixed prefix name))).
  { apply w_and; [apply w_say|apply w_prefixed]. }
  destruct (typ =? EmptyElementType); [exact (w_and _ _ _ _ P (w_say _))|].
  destruct (typ =? AnyElementType); [exact (w_and _ _ _ _ P (w_say _))|].
  destruct ((typ =? MixedElementType) || (typ =? ElementElementType)); [|apply w_fail; discriminate].
  assert (C : writes (fun W wr => match content with Some e => dumpElementContentW W wr e true | None => oret W tt end)
                (match content with Some e => dumpElementContent e true | None => Ret [] end)).
  { destruct content; [apply w_econt|apply w_ret]. }
  refine (w_weak _ _ _ (w_then' _ _ _ _ P (w_then' _ _ _ _ (w_say (s_ " ")) (w_then _ _ _ _ C (w_say (s_ ">" ++ [10]))))) _).
  intros x. match goal with |- obind ?t _ = _ -> _ => destruct t as [y|?| |]; cbn [obind]; try discriminate end.
  exact (fun H => H).
Qed.
Lemma w_attrdecl elem name prefix atype def value enum :
  writes (fun W wr => dumpAttributeDeclW W wr elem name prefix atype def value enum) (dumpAttributeDecl elem name prefix atype def value enum).
Proof.
  unfold dumpAttributeDeclW, dumpAttributeDecl.
  match goal with |- writes ?m (obind ?t (fun _ => obind ?d _)) =>
    assert (T : writes (fun W wr =>
      if atype =? AttrCDATA then say W wr (s_ " CDATA")
      else if atype =? AttrID then say W wr (s_ " ID")
      else if atype =? AttrIDRef then say W wr (s_ " IDREF")
      else if atype =? AttrIDRefs then say W wr (s_ " IDREFS")
      else if atype =? AttrEntity then say W wr (s_ " ENTITY")
      else if atype =? AttrNmtoken then say W wr (s_ " NMTOKEN")
      else if atype =? AttrNmtokens then say W wr (s_ " NMTOKENS")
      else if atype =? AttrEnumeration then obnd W (say W wr (s_ " (")) (fun _ => dumpEnumerationW W wr enum)
      else if atype =? AttrNotation then obnd W (say W wr (s_ " NOTATION (")) (fun _ => dumpEnumerationW W wr enum)
      else ofail W "invalid AttributeDecl type"%string) t)
  end.
  { ifs; try apply w_say; try (apply w_and; [apply w_say|apply w_enum]). apply w_fail; discriminate. }
  match goal with |- writes ?m (obind ?t (fun _ => obind ?d _)) =>
    assert (D : writes (fun W wr =>
      if def =? 1 then oret W tt
      else if def =? 2 then say W wr (s_ " #REQUIRED")
      else if def =? 3 then say W wr (s_ " #IMPLIED")
      else if def =? 4 then say W wr (s_ " #FIXED")
      else ofail W "invalid AttributeDecl default value type"%string) d)
  end.
  { ifs; try apply w_say; try apply w_ret. apply w_fail; discriminate. }
  assert (V : writes (fun W wr => match value with [] => oret W tt | _ => obnd W (say W wr (s_ " ")) (fun _ => dumpQuotedStringW W wr value) end)
                (Ret (match value with [] => [] | _ => s_ " " ++ dumpQuotedString value end))).
  { destruct value; [apply w_ret|]. apply w_and; [apply w_say|apply w_quoted]. }
  eapply w_weak; [exact (w_then' _ _ _ _ (w_say (s_ "<!ATTLIST ")) (w_then' _ _ _ _ (w_say elem) (w_then' _ _ _ _ (w_say (s_ " "))
     (w_then' _ _ _ _ (w_prefixed prefix name) (w_then _ _ _ _ T (w_then _ _ _ _ D (w_and _ _ _ _ V (w_say (s_ ">" ++ [10]))))))))) |].
  intros x. match goal with |- obind ?t _ = _ -> _ => destruct t as [y|?| |]; cbn [obind]; try discriminate end.
  match goal with |- obind ?t _ = _ -> _ => destruct t as [z|?| |]; cbn [obind]; try discriminate end.
  exact (fun H => H).
Qed.
Lemma w_ns ns : writes (fun W wr => dumpNsW W wr ns) (Ret (dumpNs ns)).
Proof.
  unfold dumpNsW, dumpNs. destruct ns as [p u]. cbn [fst snd]. destruct u as [|u0 u]; [apply w_ret|].
  destruct p as [|p0 p]; wlit.
Qed.
Lemma w_nslist : forall l, writes (fun W wr => dumpNsListW W wr l) (Ret (flat_map dumpNs l)).
Proof. induction l as [|ns l IH]; cbn [dumpNsListW flat_map]; [apply w_ret|]. apply w_and; [apply w_ns|exact IH]. Qed.
Lemma w_dtdhead name ext sys : writes (fun W wr => dumpDTDHeadW W wr name ext sys) (Ret (dumpDTDHead name ext sys)).
Proof. unfold dumpDTDHeadW, dumpDTDHead. destruct ext as [|e0 ext]; [destruct sys as [|s0 sys]|]; wlit. Qed.

(* the functions of Dump.v unfolded once *)
Lemma dumpNode_S n p : dumpNode h (S n) p =
      match hget h p with
      | None => Pan
      | Some c =>
          match dat c with
          | DDoc v e s _ _ => Ret (dumpDocContent v e s)
          | DDtd name ext sys t =>
              if no_decls t then Ret (dumpDTDHead name ext sys ++ s_ ">")
              else obind (dumpNodes h n (l_first (lk c))) (fun s =>
                   Ret (dumpDTDHead name ext sys ++ s_ "[" ++ [10] ++ s ++ s_ "]>"))
          | DComment s => Ret (s_ "<!--" ++ s ++ s_ "-->")
          | DRef name => Ret (s_ "&" ++ name ++ s_ ";")
          | DText s => if str_eqb s XMLTextNoEnc then Pan else Ret (escapeText s false)
          | DElemDecl name prefix typ content => dumpElementDecl name prefix typ content
          | DAttrDecl elem name prefix atype def value enum =>
              dumpAttributeDecl elem name prefix atype def value enum
          | DEntity name typ ext sys content orig => dumpEntityDecl name typ ext sys content orig
          | DElem name ns defs props =>
              let full := nameOf (dat c) in
              obind (dumpAttrs h n props) (fun a =>
              let head := s_ "<" ++ full ++ flat_map dumpNs defs ++ a in
              match l_first (lk c) with
              | None => Ret (head ++ s_ "/>")
              | Some k =>
                  obind (dumpNodes h n (Some k)) (fun s =>
                  Ret (head ++ s_ ">" ++ s ++ s_ "</" ++ full ++ s_ ">"))
              end)
          | DPI _ _ | DAttr _ _ =>
              obind (dumpNodes h n (l_first (lk c))) (fun s =>
              Ret (s_ "<" ++ nameOf (dat c) ++ s_ ">" ++ s ++ s_ "</" ++ nameOf (dat c) ++ s_ ">"))
          end
      end.
Proof. reflexivity. Qed.
Lemma dumpNodes_S n p : dumpNodes h (S n) (Some p) =
          obind (dumpNode h n p) (fun s =>
          match hget h p with
          | None => Pan
          | Some c => obind (dumpNodes h n (l_next (lk c))) (fun r => Ret (s ++ r))
          end).
Proof. reflexivity. Qed.
Lemma dumpAttrs_S n a : dumpAttrs h (S n) (Some a) =
          match hget h a with
          | None => Pan
          | Some c =>
              match dat c with
              | DAttr name _ =>
                  obind (dumpAttrKids h n (l_first (lk c))) (fun v =>
                  obind (dumpAttrs h n (l_next (lk c))) (fun r =>
                  Ret (s_ " " ++ name ++ s_ "=""" ++ v ++ s_ """" ++ r)))
              | _ => Pan
              end
          end.
Proof. reflexivity. Qed.
Lemma dumpAttrKids_S n p : dumpAttrKids h (S n) (Some p) =
          match hget h p with
          | None => Pan
          | Some c =>
              obind (match dat c with
                     | DText s => Ret (escapeAttrValue s)
                     | _ => match dumpNode h n p with Fail _ => Ret [] | r => r end
                     end) (fun s =>
              obind (dumpAttrKids h n (l_next (lk c))) (fun r => Ret (s ++ r)))
          end.
Proof. reflexivity. Qed.

(* the nodes *)
Definition W1 n := forall p, writes (fun W wr => dumpNodeW W wr h n p) (dumpNode h n p).
Definition W2 n := forall o, writes (fun W wr => dumpNodesW W wr h n o) (dumpNodes h n o).
Definition W3 n := forall o, writes (fun W wr => dumpAttrsW W wr h n o) (dumpAttrs h n o).
Definition W4 n := forall o, (forall p, o = Some p -> value_node h p) -> writes (fun W wr => dumpAttrKidsW W wr h n o) (dumpAttrKids h n o).
Ltac wout := match goal with |- obind ?t _ = _ -> _ => destruct t as [?|?| |]; cbn [obind]; try discriminate end.

Lemma w_nodes : forall n, W1 n /\ W2 n /\ W3 n /\ W4 n.
Proof.
  induction n as [|n (I1 & I2 & I3 & I4)].
  { unfold W1, W2, W3, W4. split; [|split; [|split]].
    - intro p. apply w_oof; discriminate.
    - intros [p|]; [apply w_oof; discriminate|apply w_ret].
    - intros [p|]; [apply w_oof; discriminate|apply w_ret].
    - intros [p|] _; [apply w_oof; discriminate|apply w_ret]. }
  assert (J1 : W1 (S n)).
  { intro p. cbn [dumpNodeW]; rewrite dumpNode_S; cbv zeta. destruct (hget h p) as [c|]; [|apply w_pan; discriminate].
    destruct (dat c) eqn:D.
    - apply w_doc.
    - assert (K : writes (fun W wr => match l_first (lk c) with
         | None => say W wr (s_ "/>")
         | Some k => obnd W (say W wr (s_ ">")) (fun _ => obnd W (dumpNodesW W wr h n (Some k)) (fun _ => obnd W (say W wr (s_ "</"))
             (fun _ => obnd W (say W wr (nameOf (DElem name ns nsDefs props))) (fun _ => say W wr (s_ ">")))))
         end)
         (match l_first (lk c) with
          | None => Ret (s_ "/>")
          | Some k => obind (dumpNodes h n (Some k)) (fun s => Ret (s_ ">" ++ s ++ s_ "</" ++ nameOf (DElem name ns nsDefs props) ++ s_ ">"))
          end)).
      { destruct (l_first (lk c)) as [k|]; [|apply w_say].
        refine (w_weak _ _ _ (w_then' _ _ _ _ (w_say _) (w_then _ _ _ _ (I2 _) (w_and _ _ _ _ (w_say _) (w_and _ _ _ _ (w_say _) (w_say _))))) _).
        intro x. wout. exact (fun H => H). }
      refine (w_weak _ _ _ (w_then' _ _ _ _ (w_say _) (w_then' _ _ _ _ (w_say _) (w_then' _ _ _ _ (w_nslist _) (w_then _ _ _ _ (I3 _) K)))) _).
      intro x. wout. destruct (l_first (lk c)) as [k|]; cbn [obind].
      + wout. intros H. rewrite <- H. f_equal. rewrite <- !app_assoc. reflexivity.
      + intros H. rewrite <- H. f_equal. rewrite <- !app_assoc. reflexivity.
    - destruct (str_eqb content XMLTextNoEnc); [apply w_pan; discriminate|apply w_text].
    - exact (w_and _ _ _ _ (w_say _) (w_and _ _ _ _ (w_say _) (w_say _))).
    - refine (w_weak _ _ _ (w_then' _ _ _ _ (w_say _) (w_then' _ _ _ _ (w_say _) (w_then' _ _ _ _ (w_say _) (w_then _ _ _ _ (I2 _) (w_and _ _ _ _ (w_say _) (w_and _ _ _ _ (w_say _) (w_say _))))))) _).
      intro x. wout. exact (fun H => H).
    - refine (w_weak _ _ _ (w_then' _ _ _ _ (w_say _) (w_then' _ _ _ _ (w_say _) (w_then' _ _ _ _ (w_say _) (w_then _ _ _ _ (I2 _) (w_and _ _ _ _ (w_say _) (w_and _ _ _ _ (w_say _) (w_say _))))))) _).
      intro x. wout. exact (fun H => H).
    - exact (w_and _ _ _ _ (w_say _) (w_and _ _ _ _ (w_say _) (w_say _))).
    - apply w_entity.
    - destruct (no_decls tabs).
      + exact (w_and _ _ _ _ (w_dtdhead _ _ _) (w_say _)).
      + refine (w_weak _ _ _ (w_then' _ _ _ _ (w_dtdhead _ _ _) (w_then' _ _ _ _ (w_say _) (w_then _ _ _ _ (I2 _) (w_say _)))) _).
        intro x. wout. exact (fun H => H).
    - apply w_elemdecl.
    - apply w_attrdecl. }
  split; [exact J1|]. split; [|split].
  - intros [p|]; [|apply w_ret]. cbn [dumpNodesW]; rewrite dumpNodes_S.
    assert (K : writes (fun W wr => match hget h p with None => opan W | Some c => dumpNodesW W wr h n (l_next (lk c)) end)
              (match hget h p with None => Pan | Some c => dumpNodes h n (l_next (lk c)) end)).
    { destruct (hget h p) as [c|]; [apply I2|apply w_pan; discriminate]. }
    refine (w_weak _ _ _ (w_then _ _ _ _ (I1 _) K) _).
    intro x. wout. destruct (hget h p); cbn [obind]; [|discriminate]. exact (fun H => H).
  - intros [a|]; [|apply w_ret]. cbn [dumpAttrsW]; rewrite dumpAttrs_S. destruct (hget h a) as [c|] eqn:Ea; [|apply w_pan; discriminate].
    destruct (dat c) eqn:D; try (apply w_pan; discriminate).
    assert (V : forall p, l_first (lk c) = Some p -> value_node h p).
    { intros p F. eapply vn_first; [exact Ea|eauto|exact F]. }
    refine (w_weak _ _ _ (w_then' _ _ _ _ (w_say _) (w_then _ _ _ _ (I4 _ V) (w_then' _ _ _ _ (w_say _) (I3 _)))) _).
    intro x. wout. wout. intros H. rewrite <- H. f_equal. rewrite <- !app_assoc. reflexivity.
  - intros [p|] V; [|apply w_ret]. cbn [dumpAttrKidsW]; rewrite dumpAttrKids_S. destruct (hget h p) as [c|] eqn:Ep; [|apply w_pan; discriminate].
    specialize (V p eq_refl).
    assert (K : writes (fun W wr => match dat c with DText s => dropped W (escapeAttrValueW W wr s) | _ => dropped W (dumpNodeW W wr h n p) end)
                  (match dat c with DText s => Ret (escapeAttrValue s) | _ => match dumpNode h n p with Fail _ => Ret [] | r => r end end)).
    { assert (Q : (match dat c with DText _ => False | _ => True end) ->
         writes (fun W wr => dropped W (dumpNodeW W wr h n p)) (match dumpNode h n p with Fail _ => Ret [] | r => r end)).
      { intros N. destruct (I1 p) as (r & g & Dg & H). exists (match r with Ret _ | Fail _ => Ret tt | Pan => Pan | Oof => Oof end), g.
        split; [apply (does_dropped _ (fun W wr => dumpNodeW W wr h n p) r g Dg)|].
        intros PV x E. pose proof (PV p c V Ep) as P1.
        destruct n as [|n']; [discriminate E|]. rewrite dumpNode_S in E, H. rewrite Ep in E, H.
        destruct (dat c); try contradiction. specialize (H PV _ eq_refl). destruct H as [-> Hx]. injection E as <-.
        split; [reflexivity|exact Hx]. }
      destruct (dat c); try (apply Q; exact I). apply w_attr_value. }
    assert (V' : forall q, l_next (lk c) = Some q -> value_node h q).
    { intros q F. eapply vn_next; [exact V|exact Ep|exact F]. }
    refine (w_weak _ _ _ (w_then _ _ _ _ K (I4 _ V')) _).
    intro x. exact (fun H => H).
Qed.
Lemma w_lines : forall n o, writes (fun W wr => dumpLinesW W wr h n o) (dumpLines h n o).
Proof.
  induction n as [|n IH]; intros [p|]; cbn [dumpLinesW dumpLines]; try apply w_ret; try (apply w_oof; discriminate).
  assert (K : writes (fun W wr => match hget h p with None => opan W | Some c => dumpLinesW W wr h n (l_next (lk c)) end)
            (match hget h p with None => Pan | Some c => dumpLines h n (l_next (lk c)) end)).
  { destruct (hget h p) as [c|]; [apply IH|apply w_pan; discriminate]. }
  destruct (w_nodes n) as (N & _).
  refine (w_weak _ _ _ (w_then _ _ _ _ (N _) (w_then' _ _ _ _ (w_say _) K)) _).
  intro x. wout. destruct (hget h p); cbn [obind]; [|discriminate]. wout. exact (fun H => H).
Qed.
Lemma w_dumpDoc n d : writes (fun W wr => dumpDocW W wr h n d) (dumpDoc h n d).
Proof.
  destruct n as [|n]; cbn [dumpDocW dumpDoc]; [apply w_oof; discriminate|].
  assert (K : writes (fun W wr => match hget h d with None => opan W | Some c => dumpLinesW W wr h n (l_first (lk c)) end)
            (match hget h d with None => Pan | Some c => dumpLines h n (l_first (lk c)) end)).
  { destruct (hget h d) as [c|]; [apply w_lines|apply w_pan; discriminate]. }
  destruct (w_nodes n) as (N & _).
  refine (w_weak _ _ _ (w_then _ _ _ _ (N _) K) _).
  intro x. wout. destruct (hget h d); cbn [obind]; [|discriminate]. exact (fun H => H).
Qed.
End Agree.

(* writers *)
(* what the documentation of io.Writer asks of every writer: it takes no more
   bytes than it is given, and returns an error if it takes fewer *)
Definition honest {W} (wr : W -> str -> W * (nat * bool)) : Prop :=
  forall w b w' n e, wr w b = (w', (n, e)) -> (n <= List.length b)%nat /\ (e = false -> n = List.length b).
(* once it has returned an error it takes nothing any more *)
Definition stays_broken {W} (wr : W -> str -> W * (nat * bool)) : Prop :=
  exists broken : W -> Prop,
    (forall w b w' n, wr w b = (w', (n, true)) -> broken w') /\
    (forall w b w' n e, broken w -> wr w b = (w', (n, e)) -> n = O /\ broken w').

Section Writers.
Variable W : Type.
Variable wr : W -> str -> W * (nat * bool).
Hypothesis HH : honest wr.

Lemma group_failed : forall l s, s_failed s = true -> s_failed (group wr l s) = true.
Proof.
  induction l as [|b l IH]; intros s F; cbn [group]; [exact F|].
  destruct (wr (s_w s) b) as [w [n e]]. destruct e; [cbn [s_failed]; rewrite F; reflexivity|].
  apply IH. cbn [s_failed]. rewrite F. reflexivity.
Qed.
Lemma play_failed : forall g s, s_failed s = true -> s_failed (play wr g s) = true.
Proof. induction g as [|l g IH]; intros s F; cbn [play]; [exact F|]. apply IH, group_failed, F. Qed.
Lemma group_whole : forall l s, s_failed (group wr l s) = false -> s_out (group wr l s) = s_out s ++ concat l.
Proof.
  induction l as [|b l IH]; intros s F; cbn [group concat] in *; [rewrite app_nil_r; reflexivity|].
  destruct (wr (s_w s) b) as [w [n e]] eqn:E. destruct (HH _ _ _ _ _ E) as [_ N].
  destruct e.
  - cbn [s_failed] in F. rewrite orb_true_r in F. discriminate.
  - rewrite IH by exact F. cbn [s_out]. rewrite (N eq_refl), firstn_all, <- app_assoc. reflexivity.
Qed.
Lemma play_whole : forall g s, s_failed (play wr g s) = false -> s_out (play wr g s) = s_out s ++ flat g.
Proof.
  induction g as [|l g IH]; intros s F; cbn [play] in *; [unfold flat; cbn; rewrite app_nil_r; reflexivity|].
  rewrite IH by exact F. rewrite group_whole.
  - unfold flat. cbn [concat]. rewrite concat_app, app_assoc. reflexivity.
  - destruct (s_failed (group wr l s)) eqn:E; [|reflexivity]. rewrite (play_failed g _ E) in F. discriminate.
Qed.

Variable broken : W -> Prop.
Hypothesis B1 : forall w b w' n, wr w b = (w', (n, true)) -> broken w'.
Hypothesis B2 : forall w b w' n e, broken w -> wr w b = (w', (n, e)) -> n = O /\ broken w'.
Lemma group_broken : forall l s, broken (s_w s) -> broken (s_w (group wr l s)) /\ s_out (group wr l s) = s_out s.
Proof.
  induction l as [|b l IH]; intros s F; cbn [group]; [split; [exact F|reflexivity]|].
  destruct (wr (s_w s) b) as [w [n e]] eqn:E. destruct (B2 _ _ _ _ _ F E) as [-> Bw].
  destruct e.
  - cbn [s_w s_out firstn]. rewrite app_nil_r. split; [exact Bw|reflexivity].
  - destruct (IH (Sink w (s_out s ++ firstn 0 b) (s_failed s || false)) Bw) as [X Y]. split; [exact X|].
    rewrite Y. cbn [s_out firstn]. apply app_nil_r.
Qed.
Lemma play_broken : forall g s, broken (s_w s) -> s_out (play wr g s) = s_out s.
Proof.
  induction g as [|l g IH]; intros s F; cbn [play]; [reflexivity|].
  destruct (group_broken l s F) as [X Y]. rewrite IH by exact X. exact Y.
Qed.
Lemma group_prefix : forall l s,
  (s_out (group wr l s) = s_out s ++ concat l) \/
  (broken (s_w (group wr l s)) /\ exists a b, s_out (group wr l s) = s_out s ++ a /\ concat l = a ++ b).
Proof.
  induction l as [|b l IH]; intros s; cbn [group concat]; [left; rewrite app_nil_r; reflexivity|].
  destruct (wr (s_w s) b) as [w [n e]] eqn:E. destruct (HH _ _ _ _ _ E) as [_ N]. destruct e.
  - right. cbn [s_w s_out]. split; [exact (B1 _ _ _ _ E)|]. exists (firstn n b), (skipn n b ++ concat l).
    split; [reflexivity|]. rewrite app_assoc, firstn_skipn. reflexivity.
  - rewrite (N eq_refl), firstn_all.
    destruct (IH (Sink w (s_out s ++ b) (s_failed s || false))) as [X|(X & a & c & Y & Z)].
    + left. rewrite X. cbn [s_out]. rewrite <- app_assoc. reflexivity.
    + right. split; [exact X|]. exists (b ++ a), c. rewrite Y, Z. cbn [s_out]. rewrite <- !app_assoc. split; reflexivity.
Qed.
Lemma play_prefix : forall g s, exists a b, s_out (play wr g s) = s_out s ++ a /\ flat g = a ++ b.
Proof.
  induction g as [|l g IH]; intros s; cbn [play].
  - exists [], []. rewrite app_nil_r. split; reflexivity.
  - unfold flat. cbn [concat]. rewrite concat_app. fold (flat g).
    destruct (group_prefix l s) as [X|(X & a & b & Y & Z)].
    + destruct (IH (group wr l s)) as (a & b & E & F). exists (concat l ++ a), b. rewrite E, X, F, <- !app_assoc. split; reflexivity.
    + exists a, (b ++ flat g). rewrite (play_broken g _ X), Y, Z, <- app_assoc. split; reflexivity.
Qed.
End Writers.

(* what is returned does not depend on the writer *)
Lemma same_result h n d W1 (wr1 : W1 -> str -> W1 * (nat * bool)) w1 W2 (wr2 : W2 -> str -> W2 * (nat * bool)) w2 :
  fst (XML W1 wr1 h n d w1) = fst (XML W2 wr2 h n d w2).
Proof.
  destruct (w_dumpDoc h n d) as (r & g & D & _). unfold XML. rewrite (D W1 wr1), (D W2 wr2). reflexivity.
Qed.
Lemma same_node_result h n p W1 (wr1 : W1 -> str -> W1 * (nat * bool)) w1 W2 (wr2 : W2 -> str -> W2 * (nat * bool)) w2 :
  fst (nodeXML W1 wr1 h n p w1) = fst (nodeXML W2 wr2 h n p w2).
Proof.
  destruct (w_nodes h n) as (H & _). destruct (H p) as (r & g & D & _). unfold nodeXML. rewrite (D W1 wr1), (D W2 wr2). reflexivity.
Qed.
Lemma whole h n d W (wr : W -> str -> W * (nat * bool)) w text :
  plain_values h -> honest wr -> dumpDoc h n d = Ret text -> s_failed (snd (XML W wr h n d w)) = false ->
  fst (XML W wr h n d w) = Ret tt /\ s_out (snd (XML W wr h n d w)) = text.
Proof.
  intros PV HH T. destruct (w_dumpDoc h n d) as (r & g & D & A). destruct (A PV _ T) as [-> <-].
  unfold XML. rewrite (D W wr). cbn [fst snd]. intro F. split; [reflexivity|]. apply (play_whole W wr HH g _ F).
Qed.
Lemma prefix h n d W (wr : W -> str -> W * (nat * bool)) w text :
  plain_values h -> honest wr -> stays_broken wr -> dumpDoc h n d = Ret text ->
  exists rest, s_out (snd (XML W wr h n d w)) ++ rest = text.
Proof.
  intros PV HH (b & B1 & B2) T. destruct (w_dumpDoc h n d) as (r & g & D & A). destruct (A PV _ T) as [-> <-].
  unfold XML. rewrite (D W wr). cbn [fst snd].
  destruct (play_prefix W wr HH b B1 B2 g (Sink w [] false)) as (x & y & E & F). exists y. rewrite E, F. reflexivity.
Qed.
Lemma node_whole h n p W (wr : W -> str -> W * (nat * bool)) w text :
  plain_values h -> honest wr -> dumpNode h n p = Ret text -> s_failed (snd (nodeXML W wr h n p w)) = false ->
  fst (nodeXML W wr h n p w) = Ret tt /\ s_out (snd (nodeXML W wr h n p w)) = text.
Proof.
  intros PV HH T. destruct (w_nodes h n) as (H & _). destruct (H p) as (r & g & D & A). destruct (A PV _ T) as [-> <-].
  unfold nodeXML. rewrite (D W wr). cbn [fst snd]. intro F. split; [reflexivity|]. apply (play_whole W wr HH g _ F).
Qed.
Lemma node_prefix h n p W (wr : W -> str -> W * (nat * bool)) w text :
  plain_values h -> honest wr -> stays_broken wr -> dumpNode h n p = Ret text ->
  exists rest, s_out (snd (nodeXML W wr h n p w)) ++ rest = text.
Proof.
  intros PV HH (b & B1 & B2) T. destruct (w_nodes h n) as (H & _). destruct (H p) as (r & g & D & A). destruct (A PV _ T) as [-> <-].
  unfold nodeXML. rewrite (D W wr). cbn [fst snd].
  destruct (play_prefix W wr HH b B1 B2 g (Sink w [] false)) as (x & y & E & F). exists y. rewrite E, F. reflexivity.
Qed.
Lemma buffer_honest : honest buffer.
Proof. intros w b w' n e [= <- <- <-]. split; [lia|reflexivity]. Qed.
Lemma buffer_works g : forall s, s_failed s = false -> s_failed (play buffer g s) = false.
Proof.
  assert (G : forall l s, s_failed s = false -> s_failed (group buffer l s) = false).
  { induction l as [|b l IH]; intros s F; cbn [group buffer]; [exact F|]. apply IH. cbn [s_failed]. rewrite F. reflexivity. }
  induction g as [|l g IH]; intros s F; cbn [play]; [exact F|]. apply IH, G, F.
Qed.
Lemma string_agrees h n d text : plain_values h -> dumpDoc h n d = Ret text -> XMLString h n d = Ret text.
Proof.
  intros PV T. destruct (w_dumpDoc h n d) as (r & g & D & A). destruct (A PV _ T) as [-> <-].
  unfold XMLString, XML. rewrite (D unit buffer). f_equal.
  apply (play_whole unit buffer buffer_honest g). apply buffer_works. reflexivity.
Qed.
