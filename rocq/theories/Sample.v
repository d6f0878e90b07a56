(* A concrete environment and two concrete handlers, used by the examples and
   by the counterexamples.  The two answers of the cursor at the end of the
   input that the model leaves open are parameters. *)
From Verif Require Import Base Utf8 Encoding Scan ScanProofs Parser.
From Coq Require Import ZifyBool.
Local Open Scope Z_scope.

(* ASCII letters and digits plus everything from U+00C0 on as letters; any
   order of maps; decoders other than UTF-8 are not used *)
Definition sampleLetter (c : Z) : bool :=
  ((65 <=? c) && (c <=? 90)) || ((97 <=? c) && (c <=? 122)) || ((192 <=? c) && (c <=? 55295)).
Definition env0 (eof : Z) (pct : bool) : env := {|
  eofr := eof; beof := eof; over := fun _ _ => [];
  isLetter := sampleLetter; isDigit := fun c => (48 <=? c) && (c <=? 57); isExtender := fun c => c =? 183;
  urlOk := fun _ => true; lower := fun c => if (65 <=? c) && (c <=? 90) then c + 32 else c;
  decode := fun _ b => runes_of b; bytePct := pct; permute := fun _ l => l |}.

Definition eof_ok (eof : Z) : Prop := eof = 0 \/ eof = RuneError.
Lemma env0_ok : forall eof pct, eof_ok eof -> env_ok (env0 eof pct).
Proof.
  intros eof pct He. constructor; cbn; auto.
  - intros n l. exists (List.length l). symmetry. apply skipn_all.
  - intros c Hc. unfold sampleLetter, isAZ. lia.
  - intros c Hc. lia.
Qed.

(* accepts every event and knows no entity *)
Definition plainH : handler unit := {|
  h_event := fun s _ _ => (s, HNil); h_getEntity := fun s _ _ => (s, Answer None true);
  h_getPEntity := fun s _ _ => (s, Answer None true); h_setOrig := fun s _ _ => s; h_mixed := fun _ _ => None;
  h_docEntity := fun _ _ => None; h_createAttr := fun s _ _ _ => (s, Ret tt);
  h_chunkEnter := fun s => s; h_chunkLeave := fun _ s => s |}.
(* accepts every event and remembers the entities declared, the last first *)
Definition entityH : handler (list ent) := {|
  h_event := fun s _ e =>
    (match e with EEntityDecl n t _ _ c => {| e_id := 1; e_name := n; e_type := t; e_content := c |} :: s | _ => s end, HNil);
  h_getEntity := fun s _ n => (s, match find (fun e => str_eqb (e_name e) n) s with
                                  | Some e => Answer (Some (Real e)) false | None => Answer None true end);
  h_getPEntity := fun s _ n => (s, match find (fun e => str_eqb (e_name e) n) s with
                                  | Some e => Answer (Some (Real e)) false | None => Answer None true end);
  h_setOrig := fun s _ _ => s; h_mixed := fun _ _ => None; h_docEntity := fun _ _ => None;
  h_createAttr := fun s _ _ _ => (s, Ret tt); h_chunkEnter := fun s => s; h_chunkLeave := fun _ s => s |}.

(* the outcome of parsing, the events in order of delivery *)
Definition run (eof : Z) (x : str) : outcome gerr unit * list event :=
  let '(o, s) := Parse (env0 eof false) _ entityH 300 [] x in (o, rev (map fst (tr s))).
Definition accepted (eof : Z) (x : str) : Prop := fst (run eof x) = Ret tt.
Definition events (eof : Z) (x : str) : list event := snd (run eof x).
(* the events between StartDocument and EndDocument *)
Definition body (eof : Z) (x : str) : list event := removelast (skipn 2 (events eof x)).
