(** The life of an Einsum module (parametricmatrixmodels/modules/einsum.py): the
    attributes [input_shape] and [params], compile with its effect on them also
    when it fails, readiness and evaluation.

    Simplifications: as in Einsum.v and MatMul.v; the random initial parameters
    are a function of their shape. *)
From Verif Require Import Base TreeUtil TreeSpec Seq TrainArgs NdArray OneHot Einsum MatMul.
Local Open Scope string_scope.
Local Open Scope list_scope.
Local Open Scope nat_scope.

Section Obj.
Context {V : Type}.
(** [self.input_shape], [self.params]. *)
Record eobj := mk_eobj { eo_shape : option (tree (list nat)); eo_pars : pars V }.
(** L623-624. *)
Definition is_ready (o : eobj) : bool := is_some (eo_shape o).
Definition shapes_eqb (s t : tree (list nat)) : bool := tree_eqb list_eqb s t.
(** L719-775: the parameters that are drawn, and the check of the parameters. *)
Definition draw (train : bool) (normal : list nat -> arr V) (d : sizes) (leading : list (list ascii)) (p : pars V) : result (pars V) :=
  match leading, p with
  | _ :: _, NoPars =>
      let* _ := require train ValueError in
      let* ss := rmapM (sizes_of d) leading in
      Ok (match ss with [s] => OnePar (normal s) | _ => ManyPars (map normal ss) end)
  | _, _ => Ok p
  end.
Definition check_pars (d : sizes) (leading : list (list ascii)) (p : pars V) : result unit :=
  match p with
  | NoPars => Ok tt
  | _ => let* ss := rmapM (sizes_of d) leading in
         let* _ := require (length ss =? length (par_list p)) ValueError in
         require (forallb (fun sa => list_eqb (fst sa) (shp (snd sa))) (combine ss (par_list p))) ValueError
  end.
(** L682-775: the shape is stored before anything is checked, the parameters
    before their shapes are. *)
Definition compile_obj (e : tree string) (given : option sizes) (train : bool) (normal : list nat -> arr V) (sh : tree (list nat)) (o : eobj) : eobj * result unit :=
  if match eo_shape o with Some s => negb (shapes_eqb s sh) | None => false end then (o, Err ValueError)
  else
    let o := mk_eobj (Some sh) (eo_pars o) in
    match (let* full := concrete_einsum_str (some_pars (eo_pars o)) e sh in
           let* d := dimension_map given (eo_pars o) full sh in
           let* io := parse full in
           let leading := all_but_last (length (leaves sh)) (fst io) in
           let* p := draw train normal d leading (eo_pars o) in
           Ok (d, leading, p)) with
    | Err x => (o, Err x)
    | Ok (d, leading, p) => (mk_eobj (Some sh) p, check_pars d leading p)
    end.
(** L626-680; a module that is not ready is not called (model.py L185-190). *)
Definition call_obj (zero one : V) (add mul : V -> V -> V) (e : tree string) (o : eobj) (data : tree (arr V)) : result (arr V) :=
  match eo_shape o with
  | None => Err RuntimeError
  | Some sh => einsum_call zero one add mul e (eo_pars o) sh data
  end.
End Obj.
Arguments eobj : clear implicits.
