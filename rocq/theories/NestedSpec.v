(** A model with its inner models written out. *)
From Verif Require Import Base TreeUtil Nested.
Local Open Scope list_scope.

(** [written x p s l]: with parameters [p] and state [s], the modules that are not
    models are, in order, those of [l], with their own parameters and states. *)
Inductive written {A M} : nest M -> tree A -> tree A -> list (M * (tree A * tree A)) -> Prop :=
| w_one m p s : written (One m) p s [(m, (p, s))]
| w_sub xs ps ss l : all_written xs ps ss l -> written (Sub xs) (Lst ps) (Lst ss) l
with all_written {A M} : list (nest M) -> list (tree A) -> list (tree A) -> list (M * (tree A * tree A)) -> Prop :=
| aw_nil : all_written [] [] [] []
| aw_cons x p s l xs ps ss l' : p <> NoneT -> written x p s l -> all_written xs ps ss l' ->
    all_written (x :: xs) (p :: ps) (s :: ss) (l ++ l').

(** the same modules and parameters with other states *)
Fixpoint renew {A M} (l : list (M * (tree A * tree A))) (ns : list (tree A)) : list (M * (tree A * tree A)) :=
  match l, ns with
  | (m, (p, _)) :: l', n :: ns' => (m, (p, n)) :: renew l' ns'
  | _, _ => []
  end.
