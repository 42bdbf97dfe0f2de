(** Specification of the loss functions: element by element, on complex numbers. *)
From Coq Require Import Reals Lra.
From Verif Require Import Base TreeUtil NdArray NonSeqSpec Loss.
Local Open Scope list_scope.

(** a position of a tree of arrays: a path and an offset into the array there *)
Inductive step := Key (k : string) | Idx (n : nat).
Fixpoint at_pos {V} (t : tree (arr V)) (path : list step) (i : nat) : option V :=
  match path, t with
  | [], Leaf a => nth_error (dat a) i
  | Key k :: q, Dict d => match dget d k with Some x => at_pos x q i | None => None end
  | Idx n :: q, Lst l | Idx n :: q, Tup l => match nth_error l n with Some x => at_pos x q i | None => None end
  | _, _ => None
  end.

(** same structure, same array shapes *)
Inductive alike {V W} : tree (arr V) -> tree (arr W) -> Prop :=
| al_leaf a b : wf_arr a -> wf_arr b -> shp a = shp b -> alike (Leaf a) (Leaf b)
| al_none : alike NoneT NoneT
| al_dict d e : length d = length e ->
    Forall (fun kx => exists y, dget e (fst kx) = Some y /\ alike (snd kx) y) d -> alike (Dict d) (Dict e)
| al_lst l m : Forall2 alike l m -> alike (Lst l) (Lst m)
| al_tup l m : Forall2 alike l m -> alike (Tup l) (Tup m).

(** all arrays of the tree have the shape [s] *)
Definition all_shape {V} (s : list nat) (t : tree (arr V)) : Prop := forall a, has_leaf t a -> shp a = s.

(** [l] lists the entries of the three trees, position by position, each position once *)
Definition entries {V} (P Y U : tree (arr V)) (ps : list (list step * nat)) (l : list (V * V * V)) : Prop :=
  NoDup ps /\ (forall path i, In (path, i) ps <-> at_pos P path i <> None) /\
  Forall2 (fun (pos : list step * nat) (v : V * V * V) =>
    at_pos P (fst pos) (snd pos) = Some (fst (fst v)) /\
    at_pos Y (fst pos) (snd pos) = Some (snd (fst v)) /\
    at_pos U (fst pos) (snd pos) = Some (snd v)) ps l.

Fixpoint Rsum (l : list R) : R := match l with [] => 0%R | x :: l' => (x + Rsum l')%R end.

(** *** the losses as formulas in complex numbers *)
Definition modulus (z : R * R) : R := sqrt (fst z ^ 2 + snd z ^ 2).
Definition dist (p y : R * R) : R := sqrt ((fst p - fst y) ^ 2 + (snd p - snd y) ^ 2).
(** [a p + b y + c], for real [a], [b], [c] *)
Definition combo (a : R) (p : R * R) (b : R) (y : R * R) (c : R) : R * R :=
  (a * fst p + b * fst y + c, a * snd p + b * snd y)%R.
Definition eps4 : R := (1 / 10000)%R.

(** what a residual is divided by *)
Definition weight (l : loss) (p y u : R * R) : R :=
  match l with
  | Mse | MseUns | Mae | MaeUns => 1
  | PseudoHuber delta => Rabs delta
  | MseUnc | MaeUnc => modulus u
  | Mre | MreUns => modulus (combo 0 p 1 y eps4)
  | MreUnc => modulus (combo 0 p 1 y eps4) * modulus u
  | Mrd => modulus (combo 2 p 2 y eps4)
  | MrdUnc => modulus (combo 2 p 2 y eps4) * modulus u
  end%R.
Definition formula (l : loss) (p y u : R * R) : R :=
  let r := (dist p y / weight l p y u)%R in
  match l with
  | Mse | MseUns | MseUnc => r ^ 2
  | PseudoHuber delta => delta ^ 2 * (sqrt (1 + r ^ 2) - 1)
  | _ => r
  end%R.

(** whether the function takes uncertainties, and whether it takes bare arrays only *)
Definition uses_unc (l : loss) : bool := match l with MseUnc | MaeUnc | MreUnc | MrdUnc => true | _ => false end.
Definition bare {V} (l : loss) (t : tree (arr V)) : Prop :=
  match l with PseudoHuber _ => exists a, t = Leaf a | _ => True end.
Definition finite (e : R * R * (R * R) * (R * R)) : num * num * num := (Some (fst (fst e)), Some (snd (fst e)), Some (snd e)).
