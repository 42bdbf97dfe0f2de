(** Loading into a model that is in use, step by step, with what is left of the
    model when a step raises an exception (parametricmatrixmodels/model.py
    L157-165, L192-207, L568-577, L1094-1104, L1546-1578, L1639-1741;
    modules/basemodule.py L857-892).

    Simplifications: the modules are in a list, in the order of jax, so that the
    structure of a model is their number; versions are compared after parsing;
    the module versions of a model's own entries and [upgrade] are in
    Versions.v; compiled functions, which [reset] clears as well, are taken
    together with the shapes; the entries "modules", "rng" and "_optimizer_state"
    of a model's own hyperparameters, if present, repeat what was set before and
    are left out. *)
From Verif Require Import Base.
Local Open Scope list_scope.

Section Reload.
(** versions, classes, module objects, saved modules, shapes, optimiser states,
    keys, names, and the parameters and states a model notes about itself *)
Context {V C O SM Sh Op K N E : Type}.
Variable veqb : V -> V -> bool.
Variable current : V.
(** [getattr(sys.modules[module], name)()], model.py L1683-1685 *)
Variable construct : C -> result O.
(** [module.deserialize(data, strict_package_version=...)]: what the module is
    afterwards, and whether it raised *)
Variable revive : bool -> O -> SM -> O * result unit.
(** [module.is_ready()] *)
Variable oready : O -> bool.
(** [set_params] and [set_state] of the whole model, basemodule.py L879-887 (its
    trainable flag is taken out before, model.py L1735) *)
Variable settle : list O -> E -> list O * result unit.

Record model := mk_model {
  r_mods : list O; r_in : option Sh; r_out : option Sh; r_opt : option Op; r_key : K; r_name : option N }.
(** What [serialize] returns, model.py L1622-1637; entries that may be refused
    or missing are results. *)
Record saved := mk_saved {
  s_package : V; s_classes : list C; s_mods : list SM; s_structure : nat; s_name : option N; s_key : result K;
  s_opt : option (result Op); s_self_package : V;
  s_in : option (option Sh); s_out : option (option Sh); s_rest : E }.

(** reset, L192-207 *)
Definition reset (m : model) : model := mk_model (r_mods m) None None None (r_key m) (r_name m).
(** is_ready, L157-165 *)
Definition is_ready (m : model) : bool :=
  negb (length (r_mods m) =? 0) && forallb oready (r_mods m)
  && match r_in m with Some _ => true | None => false end && match r_out m with Some _ => true | None => false end.

Fixpoint make (cs : list C) : result (list O) :=
  match cs with
  | [] => Ok []
  | c :: cs' => let* o := construct c in let* os := make cs' in Ok (o :: os)
  end.
(** the modules one after the other; the first exception ends it, L1691-1697 *)
Fixpoint revive_all (strict : bool) (os : list O) (ss : list SM) : list O * result unit :=
  match os, ss with
  | o :: os', s :: ss' =>
      match revive strict o s with
      | (o1, Err e) => (o1 :: os', Err e)
      | (o1, Ok _) => let (os1, r) := revive_all strict os' ss' in (o1 :: os1, r)
      end
  | _, _ => (os, Ok tt)
  end.

Definition with_mods (m : model) os := mk_model os (r_in m) (r_out m) (r_opt m) (r_key m) (r_name m).
(** basemodule.py L857-892 with Model.set_hyperparameters, model.py L1546-1578:
    the shapes are set one after the other *)
Definition own_entries (strict : bool) (m : model) (d : saved) : model * result unit :=
  if negb (veqb current (s_self_package d)) && strict then (m, Err ValueError)
  else match s_in d with
       | None => (m, Err KeyError)                                        (* L1562 *)
       | Some i =>
           let m1 := mk_model (r_mods m) i (r_out m) (r_opt m) (r_key m) (r_name m) in
           match s_out d with
           | None => (m1, Err KeyError)                                   (* L1563 *)
           | Some o =>
               let (os, r) := settle (r_mods m) (s_rest d) in
               (mk_model os i o (r_opt m) (r_key m) (r_name m), r)
           end
       end.
(** Model.deserialize, L1660-1741 *)
Definition deserialize (strict : bool) (m : model) (d : saved) : model * result unit :=
  let m0 := reset m in                                                    (* L1660 *)
  if negb (veqb current (s_package d)) && strict then (m0, Err ValueError)  (* L1663-1672 *)
  else match make (s_classes d) with                                      (* L1682-1688 *)
  | Err e => (m0, Err e)
  | Ok os =>
      if negb (length os =? length (s_mods d)) then (with_mods m0 os, Err ValueError)  (* jax.tree.map *)
      else
        let (os1, r) := revive_all strict os (s_mods d) in                (* L1691-1697 *)
        let m1 := with_mods m0 os1 in
        match r with
        | Err e => (m1, Err e)
        | Ok _ =>
            if negb (length os1 =? s_structure d) then (m1, Err ValueError)  (* L1700-1704 *)
            else
              let m2 := mk_model os1 None None None (r_key m0) (s_name d) in  (* L1707 *)
              match s_key d with                                          (* L1710-1711 *)
              | Err e => (m2, Err e)
              | Ok k =>
                  match s_opt d with                                      (* L1714-1725 *)
                  | Some (Err e) => (mk_model os1 None None None k (s_name d), Err e)
                  | Some (Ok o) => own_entries strict (mk_model os1 None None (Some o) k (s_name d)) d
                  | None => own_entries strict (mk_model os1 None None None k (s_name d)) d
                  end
              end
        end
  end.

(** [model(X)], L568-577; [f] is what a ready model does. *)
Definition call {X Y} (f : model -> X -> result Y) (m : model) (x : X) : result Y :=
  if is_ready m then f m x else Err RuntimeError.
(** [compile] of the shape: of the modules, which gives the shape of the output,
    and the shapes are noted (sequentialmodel.py L99-148; what a failing
    compilation leaves is in C59); used by [train] if the model is not ready,
    L1094-1104. *)
Definition compile (ocompile : list O -> Sh -> result (list O * Sh)) (m : model) (s : Sh) : model * result unit :=
  match ocompile (r_mods m) s with
  | Ok (os, o) => (mk_model os (Some s) (Some o) (r_opt m) (r_key m) (r_name m), Ok tt)
  | Err e => (m, Err e)
  end.
End Reload.
