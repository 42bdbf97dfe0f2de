(** Several conformal models and the dictionaries of quantiles they keep
    (parametricmatrixmodels/conformal/conformalizedmodel.py L146-205, L1125-1197,
    L1525-1697, L1732-1776). The dictionary [qhats] is the only attribute that is
    changed in place (L1187), so it is kept by reference.

    Simplifications: those of Conformal.v; loading from a file makes new
    dictionaries (pickle), in memory [deserialize] takes over the one it is
    given. *)
From Coq Require Import Reals.
From Verif Require Import Base TreeUtil OneHot Conformal.
Local Open Scope list_scope.

Definition cache := list (R * tree (list R)).
Record cmodel := mk_cmodel { q_alpha : R; q_scores : option (tree rbatch); q_ref : nat }.
(** The models made so far, the dictionaries, and the first unused reference. *)
Record world := mk_world { w_models : list cmodel; w_caches : nat -> cache; w_next : nat }.
Definition set_cache (f : nat -> cache) (r : nat) (c : cache) : nat -> cache := fun s => if Nat.eqb s r then c else f s.
(** The model with its dictionary, as in Conformal.v. *)
Definition seen (w : world) (m : cmodel) : conf := mk_conf (q_alpha m) (q_scores m) (w_caches w (q_ref m)).
Fixpoint replace (i : nat) (m : cmodel) (l : list cmodel) : list cmodel :=
  match i, l with O, _ :: l' => m :: l' | S i, x :: l' => x :: replace i m l' | _, [] => [] end.

Inductive action :=
| New (alpha : R)                         (* the constructor, L146-205 *)
| Calibrate (i : nat) (s : tree rbatch)
| Ask (i : nat) (a : alphas)
| Restore (i : nat)                       (* deserialize(m.serialize()), L1558, L1653 *)
| Reload (i : nat).                       (* m.save(file); from_file(file), L1698-1776 *)
(** Exceptions are caught by the caller. *)
Definition act (w : world) (a : action) : world :=
  match a with
  | New alpha => mk_world (w_models w ++ [mk_cmodel alpha None (w_next w)]) (set_cache (w_caches w) (w_next w) []) (S (w_next w))
  | Calibrate i s =>
      match nth_error (w_models w) i with
      | Some m => mk_world (replace i (mk_cmodel (q_alpha m) (Some s) (q_ref m)) (w_models w)) (w_caches w) (w_next w)
      | None => w
      end
  | Ask i a =>
      match nth_error (w_models w) i with
      | Some m => match get_qhat (seen w m) a with
                  | Ok (_, c) => mk_world (w_models w) (set_cache (w_caches w) (q_ref m) (c_qhats c)) (w_next w)
                  | Err _ => w
                  end
      | None => w
      end
  | Restore i =>
      match nth_error (w_models w) i with
      | Some m => mk_world (w_models w ++ [m]) (w_caches w) (w_next w)
      | None => w
      end
  | Reload i =>
      match nth_error (w_models w) i with
      | Some m => mk_world (w_models w ++ [mk_cmodel (q_alpha m) (q_scores m) (w_next w)])
                    (set_cache (w_caches w) (w_next w) (w_caches w (q_ref m))) (S (w_next w))
      | None => w
      end
  end.
Definition acts (w : world) (l : list action) : world := fold_left act l w.
Definition nothing : world := mk_world [] (fun _ => []) 0.
