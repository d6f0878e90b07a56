From Verif Require Import Base Sax2.

Section P.
Variables (V error W : Type) (unspecified : error).

(* Every method but Error hands its arguments to the handler installed for
   its own event and returns what it returned; with none installed it has no
   effect and reports ErrHandlerUnspecified. *)
Lemma dispatch_exact (s : SAX2 V error W) k w ctx args r :
  k <> KError ->
  invoke V error unspecified W s k w ctx args = Some r ->
  r = match installed V error W s k with
      | Some h => h w ctx args
      | None => (w, RZero V error (zero_of k) unspecified)
      end.
Proof.
  intros Hk H. destruct k; try congruence;
  cbn [invoke] in H;
  repeat (destruct args as [|? args]; try discriminate);
  injection H as <-; reflexivity.
Qed.

Lemma dispatch_error (s : SAX2 V error W) w ctx msg args :
  invoke V error unspecified W s KError w ctx (msg :: args)
  = Some match installed V error W s KError with
         | Some h => h w ctx [msg; VSlice V args]
         | None => (w, RZero V error ZNone unspecified)
         end.
Proof. reflexivity. Qed.

(* each method can be called *)
Lemma invoke_total k : exists n, forall (s : SAX2 V error W) w ctx (args : list (value V)),
  List.length args = n -> invoke V error unspecified W s k w ctx args <> None.
Proof.
  destruct k;
  [exists 6%nat|exists 1%nat|exists 1%nat|exists 1%nat|exists 3%nat|exists 0%nat|exists 3%nat|exists 5%nat|exists 1%nat
  |exists 3%nat|exists 1%nat|exists 1%nat|exists 0%nat|exists 0%nat|exists 1%nat|exists 3%nat|exists 0%nat|exists 3%nat
  |exists 2%nat|exists 1%nat|exists 2%nat|exists 1%nat|exists 0%nat|exists 5%nat|exists 4%nat];
  intros s w ctx args Hl; repeat (destruct args as [|? args]; cbn [List.length] in Hl; try lia); discriminate.
Qed.
End P.

(* The Error method does not pass its arguments on as they are. *)
Lemma error_args_refuted :
  exists (s : SAX2 Z Z (list (list (value Z)))) h msg args,
    installed _ _ _ s KError = Some h /\
    invoke Z Z 0 _ s KError [] (VAtom Z 0) (msg :: args) <> Some (h [] (VAtom Z 0) (msg :: args)).
Proof.
  set (h := fun (w : list (list (value Z))) (_ : value Z) (a : list (value Z)) => (w ++ [a], ROf Z Z None None)).
  exists {| AttributeDeclHandler := None; CDataBlockHandler := None; CharactersHandler := None; CommentHandler := None; ElementDeclHandler := None; EndDocumentHandler := None; EndElementNSHandler := None; EntityDeclHandler := None; ErrorHandler := Some h; ExternalSubsetHandler := None; GetEntityHandler := None; GetParameterEntityHandler := None; HasExternalSubsetHandler := None; HasInternalSubsetHandler := None; IgnorableWhitespaceHandler := None; InternalSubsetHandler := None; IsStandaloneHandler := None; NotationDeclHandler := None; ProcessingInstructionHandler := None; ReferenceHandler := None; ResolveEntityHandler := None; SetDocumentLocatorHandler := None; StartDocumentHandler := None; StartElementNSHandler := None; UnparsedEntityDeclHandler := None |}, h, (VAtom Z 1), [VAtom Z 2; VAtom Z 3].
  split; [reflexivity|]. vm_compute. discriminate.
Qed.
