(** Output shapes of models inside models, when some of them have been compiled
    before: sequentialmodel.py L99-194, nonsequentialmodel.py L372-521, L565-735,
    model.py L157-165 of /repo/parametricmatrixmodels.

    Simplifications.  A graph model is a chain of its modules in the order of
    execution, each with one input (how inputs are put together from several
    outputs: NonSeq.v, C12, C16).  A module is a function [o] giving its output
    shape ([get_output_shape], which for modules that are not models does not
    depend on what has been compiled), a test [fit] of whether compile accepts an
    input shape given the shape it was compiled for before, and that shape; it
    is ready once it is compiled.  [proper] is the check of the output shape of a
    model ([len(shape) >= 1]).  Random keys: C123.  A compile that fails gives
    an error and no model (what it leaves behind: C59). *)
From Verif Require Import Base.
Local Open Scope list_scope.

Section Recompile.
Context {Sh : Type} (eqb : Sh -> Sh -> bool) (proper : Sh -> bool).

Inductive model :=
| Plain (o : Sh -> result Sh) (fit : option Sh -> Sh -> bool) (c : option Sh)
| Seq (sh : option (Sh * Sh)) (l : list model)      (* SequentialModel; input_shape and output_shape *)
| Graph (sh : option (Sh * Sh)) (l : list model).   (* NonSequentialModel *)

(** model.py L157-165 *)
Fixpoint ready (m : model) : bool :=
  match m with
  | Plain _ _ c => match c with Some _ => true | None => false end
  | Seq sh l | Graph sh l =>
      match l with [] => false | _ => true end && forallb ready l && match sh with Some _ => true | None => false end
  end.

Definition runtime {A} (r : result A) : result A := match r with Ok a => Ok a | Err _ => Err RuntimeError end.
Definition checked (s : Sh) : result Sh := if proper s then Ok s else Err ValueError.

(** get_output_shape: sequentialmodel.py L179-194, nonsequentialmodel.py L724-735
    (with the failures of the modules as in L690-697). *)
Fixpoint announce (m : model) (s : Sh) : result Sh :=
  match m with
  | Plain o _ _ => o s
  | Seq sh l =>
      match (if ready m then sh else None) with
      | Some io => Ok (snd io)
      | None => let* r := (fix go (l : list model) (s : Sh) : result Sh :=
                             match l with [] => Ok s | x :: l' => let* s' := announce x s in go l' s' end) l s in checked r
      end
  | Graph sh l =>
      match (if ready m then sh else None) with
      | Some io => Ok (snd io)
      | None => let* r := (fix go (l : list model) (s : Sh) : result Sh :=
                             match l with [] => Ok s | x :: l' => let* s' := runtime (announce x s) in go l' s' end) l s in checked r
      end
  end.
(** _get_shape_progression: the input shape of every module, and the output shape. *)
Fixpoint progression (l : list model) (s : Sh) : result (list Sh * Sh) :=
  match l with
  | [] => Ok ([], s)
  | x :: l' => let* s' := runtime (announce x s) in let* r := progression l' s' in Ok (s :: fst r, snd r)
  end.

(** compile.  SequentialModel, sequentialmodel.py L131-152: every module is
    compiled and then asked for its output shape.  NonSequentialModel,
    nonsequentialmodel.py L420-521: nothing but a comparison if it is ready;
    otherwise all modules are asked for their output shapes first, and then
    compiled. *)
Fixpoint compile (m : model) (s : Sh) : result model :=
  match m with
  | Plain o fit c => if fit c s then Ok (Plain o fit (Some s)) else Err ValueError
  | Seq _ l =>
      let* r := (fix go (l : list model) (s : Sh) : result (list model * Sh) :=
                   match l with
                   | [] => Ok ([], s)
                   | x :: l' =>
                       let* x' := runtime (compile x s) in
                       let* s' := announce x' s in
                       let* r := go l' s' in Ok (x' :: fst r, snd r)
                   end) l s in
      let* out := checked (snd r) in
      Ok (Seq (Some (s, out)) (fst r))
  | Graph sh l =>
      match (if ready m then sh else None) with
      | Some io => if eqb s (fst io) then Ok m else Err AssertionError
      | None =>
          let* p := progression l s in
          let* out := checked (snd p) in
          let* l' := (fix go (l : list model) (ss : list Sh) : result (list model) :=
                        match l, ss with
                        | x :: l', s :: ss' => let* x' := runtime (compile x s) in let* r := go l' ss' in Ok (x' :: r)
                        | _, _ => Ok []
                        end) l (fst p) in
          Ok (Graph (Some (s, out)) l')
      end
  end.
End Recompile.
Arguments model Sh : clear implicits.
