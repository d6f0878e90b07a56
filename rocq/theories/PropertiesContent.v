(* C43: content models. *)
From Verif Require Import Base Utf8 Utf8Proofs Escape XmlSpec Scan Sample ParserEx Heap Dump XmlEx.
From Verif Require Import Grammar Content ContentProofs ContentDump.
Local Open Scope Z_scope.

(* Content.v has the texts of declarations [decl_text], the child sequences that
   an expression admits [spec_lang] and those that a stored model admits
   [stored_lang].  [spec_fits] and [rereads] delimit the expressions: missing are
   those of the theorems _refuted below, and nesting above 128. *)
Theorem C43_denotes_partial : forall E, env_ok E -> forall p l s t, decl_text p l s t -> qnamed E p l -> Z.of_nat (List.length (qname p l)) <= 50000 ->
  spec_fits E s ->
  exists typ m,
    (forall n after, (List.length t <= n)%nat -> scanElementDecl E n (t ++ after) = (Ret (utf8 (qname p l), typ, m), after)) /\
    (forall w, stored_lang typ m w <-> spec_lang s w) /\
    (rereads s -> exists t', dumpElementDecl (utf8 l) (utf8 p) typ m = Ret (utf8 t' ++ [10]) /\
       forall n after, (List.length t' <= n)%nat -> scanElementDecl E n (t' ++ after) = (Ret (utf8 (qname p l), typ, m), after)).
Proof. exact declared. Qed.
Definition model_text : list Z := s_ "<!ELEMENT p:r ( a, (b |c*|(d , e+)?)? ,(f))>".
Definition model_spec : spec :=
  Children (Group 44 (More (Name [] (s_ "a") Once)
    (More (Group 124 (More (Name [] (s_ "b") Once) (More (Name [] (s_ "c") Mult)
             (One (Group 44 (More (Name [] (s_ "d") Once) (One (Name [] (s_ "e") Plus))) Opt)))) Opt)
      (One (Group 44 (One (Name [] (s_ "f") Once)) Once)))) Once).
Example C43_ex : decl_text (s_ "p") (s_ "r") model_spec model_text /\ qnamed (env0 0 false) (s_ "p") (s_ "r") /\
  spec_fits (env0 0 false) model_spec /\ rereads model_spec /\
  spec_lang model_spec [s_ "a"; s_ "d"; s_ "e"; s_ "e"; s_ "f"] /\ ~ spec_lang model_spec [s_ "a"] /\
  match scanElementDecl (env0 0 false) 100 model_text with
  | (Ret (_, typ, m), []) => dumpElementDecl (s_ "r") (s_ "p") typ m = Ret (s_ "<!ELEMENT p:r (a , (b | c* | (d , e+)?)? , f)>" ++ [10])
  | _ => False
  end.
Proof.
  assert (B : forall c, blank c = true -> blanks [c]) by (intros c H; repeat constructor; exact H). assert (B0 : blanks []) by constructor.
  split; [|split; [|split; [|split; [|split; [|split]]]]].
  - refine (dc (s_ "p") (s_ "r") model_spec [32] [32] (s_ "( a, (b |c*|(d , e+)?)? ,(f))") [] _ (B 32 eq_refl) _ (B 32 eq_refl) _ B0); [discriminate|discriminate|].
    apply st_children. apply (tx_group 44 _ Once (s_ " a, (b |c*|(d , e+)?)? ,(f)")).
    apply (txs_more 44 _ _ [32] (s_ "a") [] (s_ " (b |c*|(d , e+)?)? ,(f)")); auto; [apply (tx_name [] (s_ "a") Once)|].
    apply (txs_more 44 _ _ [32] (s_ "(b |c*|(d , e+)?)?") [32] (s_ "(f)")); auto.
    + apply (tx_group 124 _ Opt (s_ "b |c*|(d , e+)?")).
      apply (txs_more 124 _ _ [] (s_ "b") [32] (s_ "c*|(d , e+)?")); auto; [apply (tx_name [] (s_ "b") Once)|].
      apply (txs_more 124 _ _ [] (s_ "c*") [] (s_ "(d , e+)?")); auto; [apply (tx_name [] (s_ "c") Mult)|].
      apply (txs_one 124 _ [] (s_ "(d , e+)?") []); auto. apply (tx_group 44 _ Opt (s_ "d , e+")).
      apply (txs_more 44 _ _ [] (s_ "d") [32] (s_ " e+")); auto; [apply (tx_name [] (s_ "d") Once)|].
      apply (txs_one 44 _ [32] (s_ "e+") []); auto. apply (tx_name [] (s_ "e") Plus).
    + apply (txs_one 44 _ [] (s_ "(f)") []); auto. apply (tx_group 44 _ Once (s_ "f")). apply (txs_one 44 _ [] (s_ "f") []); auto. apply (tx_name [] (s_ "f") Once).
  - split; [right|]; nc.
  - assert (N : forall a, ncname (env0 0 false) [a] -> qnamed (env0 0 false) [] [a] /\ Z.of_nat (List.length (qname [] [a])) <= 50000) by (intros a H; split; [split; auto|vm_compute; discriminate]).
    cbn -[Z.of_nat Z.le]. repeat match goal with
      | |- _ /\ _ => split
      | |- (exists _ _ _, _) => do 3 eexists; reflexivity
      | |- qnamed _ _ _ => split; [left; reflexivity|nc]
      | |- _ <= _ => vm_compute; discriminate
      | |- _ -> _ => intros; discriminate
      | |- ?a = ?b \/ _ => first [left; reflexivity|right; reflexivity]
      end.
  - exact I.
  - exists [s_ "a"], [s_ "d"; s_ "e"; s_ "e"; s_ "f"]. split; [reflexivity|]. split; [reflexivity|].
    exists [s_ "d"; s_ "e"; s_ "e"], [s_ "f"]. split; [reflexivity|]. split; [|reflexivity]. right. right. right. right.
    exists [s_ "d"], [s_ "e"; s_ "e"]. split; [reflexivity|]. split; [reflexivity|]. exists [s_ "e"], [s_ "e"]. split; [reflexivity|]. split; [reflexivity|].
    apply (star_app _ [s_ "e"] []); [reflexivity|constructor].
  - intros (u & v & X & U & (u' & v' & X' & _ & V)). cbn in U, V. subst. apply (f_equal (@List.length str)) in X. rewrite !app_length in X. cbn in X. lia.
  - vm_compute. reflexivity.
Qed.

Definition with_model (x : string) : list Z := s_ ("<!DOCTYPE r [<!ELEMENT r " ++ x ++ ">]><r/>").
(* a group with * or + is refused, so that what is written for a group of one
   repeated name cannot be read *)
Theorem C43_star_refuted : exists t, fst (parsed (with_model "(a*)")) = Ret tt /\ written (with_model "(a*)") = Ret t /\ contains (s_ "<!ELEMENT r (a)*>") t /\
  fst (parsed t) <> Ret tt /\ fst (parsed (with_model "(a,b)*")) <> Ret tt /\ fst (parsed (with_model "(a,b)+")) <> Ret tt.
Proof.
  eexists. split; [vm_compute; reflexivity|]. split; [vm_compute; reflexivity|]. split.
  - exists (s_ "<?xml version=""1.0""?>" ++ [10] ++ s_ "<!DOCTYPE r [" ++ [10]), ([10] ++ s_ "]>" ++ [10] ++ s_ "<r/>" ++ [10]). reflexivity.
  - split; [vm_compute; discriminate|]. split; vm_compute; discriminate.
Qed.
(* a group that starts with a group loses its first member: the model admits
   nothing, and cannot be written *)
Theorem C43_first_group_refuted : exists m,
  scanElementDecl (env0 0 false) 100 (s_ "<!ELEMENT r ((a|b),c)>") = (Ret (s_ "r", ElementElementType, m), []) /\
  (forall w, ~ stored_lang ElementElementType m w) /\
  lang (Group 44 (More (Group 124 (More (Name [] (s_ "a") Once) (One (Name [] (s_ "b") Once))) Once) (One (Name [] (s_ "c") Once))) Once) [s_ "a"; s_ "c"] /\
  fst (parsed (with_model "((a|b),c)")) = Ret tt /\ written (with_model "((a|b),c)") = Pan.
Proof.
  eexists. split; [vm_compute; reflexivity|]. split; [intros w (u & v & _ & [] & _)|]. split.
  - exists [s_ "a"], [s_ "c"]. split; [reflexivity|]. split; [left; reflexivity|reflexivity].
  - split; vm_compute; reflexivity.
Qed.
(* an optional group of one repeated name is read as an optional name *)
Theorem C43_optional_refuted : exists m,
  scanElementDecl (env0 0 false) 100 (s_ "<!ELEMENT r (a*)?>") = (Ret (s_ "r", ElementElementType, m), []) /\
  lang (Group 44 (One (Name [] (s_ "a") Mult)) Opt) [s_ "a"; s_ "a"] /\ ~ stored_lang ElementElementType m [s_ "a"; s_ "a"].
Proof.
  eexists. split; [vm_compute; reflexivity|]. split.
  - right. apply (star_app _ [s_ "a"] [s_ "a"]); [reflexivity|]. apply (star_app _ [s_ "a"] []); [reflexivity|constructor].
  - intros [X|X]; discriminate X.
Qed.
(* a mixed model is written with blanks that are not read, and one of two names
   is not read at all *)
Theorem C43_mixed_refuted : exists t, fst (parsed (with_model "(#PCDATA|a)*")) = Ret tt /\ written (with_model "(#PCDATA|a)*") = Ret t /\
  contains (s_ "<!ELEMENT r (#PCDATA | a)*>") t /\ fst (parsed t) <> Ret tt /\ fst (parsed (with_model "(#PCDATA|a|b)*")) <> Ret tt.
Proof.
  eexists. split; [vm_compute; reflexivity|]. split; [vm_compute; reflexivity|]. split.
  - exists (s_ "<?xml version=""1.0""?>" ++ [10] ++ s_ "<!DOCTYPE r [" ++ [10]), ([10] ++ s_ "]>" ++ [10] ++ s_ "<r/>" ++ [10]). reflexivity.
  - split; vm_compute; discriminate.
Qed.

(* ---- assumptions ---- *)
Print Assumptions C43_denotes_partial.
Print Assumptions C43_star_refuted.
Print Assumptions C43_first_group_refuted.
Print Assumptions C43_optional_refuted.
Print Assumptions C43_mixed_refuted.
