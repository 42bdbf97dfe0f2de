(** Eigenvalue selection (parametricmatrixmodels/eigen_util.py) and the modules
    Eigenvalues, Eigenvectors and Eigensystem
    (parametricmatrixmodels/modules/eigenvalues.py, eigenvectors.py,
    eigensystem.py).

    Simplifications:
    - eigenvalues are real numbers (they come from [eigvalsh]/[eigh]), so there
      is no NaN; entries of eigenvectors are of any type;
    - [np.linalg.eigh] is an argument;
    - an array of matrices is the list of its samples; [jax.vmap] is a map;
    - [np.argsort] is a stable sort. *)
From Coq Require Import Reals ZArith.
From Verif Require Import Base TreeUtil Serial OneHot Conformal.
Local Open Scope string_scope.
Local Open Scope list_scope.
Local Open Scope nat_scope.

(** Python slicing [l[a:b]] with step 1: negative bounds count from the end. *)
Definition bound_of (n : Z) (d : Z) (b : option Z) : Z :=
  match b with
  | None => d
  | Some z => if (z <? 0)%Z then Z.max 0 (z + n) else Z.min z n
  end.
Definition pyslice {A} (a b : option Z) (l : list A) : list A :=
  let n := Z.of_nat (length l) in
  let i := bound_of n 0 a in let j := bound_of n n b in
  firstn (Z.to_nat (j - i)) (skipn (Z.to_nat i) l).

Definition lower_char (c : ascii) : ascii :=
  let n := nat_of_ascii c in if (65 <=? n) && (n <=? 90) then ascii_of_nat (n + 32) else c.
Fixpoint lower (s : string) : string :=
  match s with EmptyString => EmptyString | String c s' => String (lower_char c) (lower s') end.
Fixpoint last_is (c : ascii) (s : string) : bool :=
  match s with EmptyString => false | String d EmptyString => Ascii.eqb c d | String _ s' => last_is c s' end.

Inductive pick := Smallest | Largest | Exterior | Interior.
(** L98-113: the first letter decides the rule, the last the sort key. *)
Definition parse_which (which : string) : result (pick * bool) :=
  let w := lower which in
  let p := if startswith w "s" then Some Smallest else if startswith w "l" then Some Largest
           else if startswith w "e" then Some Exterior else if startswith w "i" then Some Interior else None in
  let alg := last_is "a" w in let mag := last_is "m" w in
  match p with
  | Some p => if alg then Ok (p, true) else if mag then Ok (p, false) else Err ValueError
  | None => Err ValueError
  end.

(** L118-121: the indices in ascending order of the value or the magnitude. *)
Definition sort_key (algebraic : bool) (v : R) : R := if algebraic then v else Rabs v.
Definition argsort (algebraic : bool) (E : list R) : list nat :=
  isort (fun i j => rle (sort_key algebraic (nth i E 0%R)) (sort_key algebraic (nth j E 0%R))) (seq 0 (length E)).
(** L124-156. *)
Definition pick_indices (p : pick) (algebraic : bool) (k : nat) (E : list R) : list nat :=
  let s := argsort algebraic E in
  let z := Z.of_nat k in let k_half := (z / 2)%Z in let k_rem := (z - k_half)%Z in
  let n_half := (Z.of_nat (length E) / 2)%Z in
  match p with
  | Smallest => pyslice None (Some z) s
  | Largest => pyslice (Some (- z)%Z) None s
  | Exterior => pyslice None (Some k_half) s ++ pyslice (Some (- k_rem)%Z) None s
  | Interior => pyslice (Some (n_half - k_half)%Z) (Some n_half) s ++ pyslice (Some n_half) (Some (n_half + k_rem)%Z) s
  end.

Section Entries.
Context {B : Type} (d : B).
(** L30-65; the eigenvectors are the columns of [V]. *)
Definition select_by_fn (E : list R) (V : option (list (list B))) (k : option nat) (sort_fn : list R -> list nat)
  : list R * option (list (list B)) :=
  let k := match k with Some k => k | None => length E end in
  let idx := sort_fn E in
  let E' := map (fun i => nth i E 0%R) idx in
  match V with
  | Some V => (firstn k E', Some (map (fun row => firstn k (map (fun i => nth i row d) idx)) V))
  | None => (firstn k E', None)
  end.
(** L68-164. *)
Definition select_eigenpairs (E : list R) (V : option (list (list B))) (k : option nat) (which : string)
  : result (list R * option (list (list B))) :=
  let* pa := parse_which which in
  let k' := match k with Some k => k | None => length E end in
  Ok (select_by_fn E V (Some k') (pick_indices (fst pa) (snd pa) k')).
(** L167-194. *)
Definition select_eigenvalues (E : list R) (k : option nat) (which : string) : result (list R) :=
  let* r := select_eigenpairs E None k which in Ok (fst r).

(* ------------------------------------------------------------------ *)
(** * The modules *)

(** A leaf of the data: the size of the matrices, and the samples. *)
Context {M : Type} (eigh : nat -> M -> list R * list (list B)).
Record mats := mk_mats { msize : nat; msamples : list M }.

(** eigenvalues.py L117-142. *)
Definition eigenvalues_call (num_eig : option nat) (which : string) (data : tree mats) : result (tree (list (list R))) :=
  jmapM (fun x => rmapM (fun m => select_eigenvalues (fst (eigh (msize x) m)) num_eig which) (msamples x)) data.
(** eigenvectors.py L123-146. *)
Definition the_vectors (r : list R * option (list (list B))) : list (list B) := match snd r with Some v => v | None => [] end.
Definition pairs_leaf (num_eig : option nat) (which : string) (x : mats) : result (list (list R * option (list (list B)))) :=
  rmapM (fun m => let '(E, V) := eigh (msize x) m in select_eigenpairs E (Some V) num_eig which) (msamples x).
Definition eigenvectors_call (num_eig : option nat) (which : string) (data : tree mats) : result (tree (list (list (list B)))) :=
  jmapM (fun x => let* l := pairs_leaf num_eig which x in Ok (map the_vectors l)) data.
(** eigensystem.py L120-153: the trees of eigenvalues and of eigenvectors, in a
    dictionary with these two keys; [jax.tree.transpose] rejects trees without
    leaves. *)
Definition eigensystem_call (num_eig : option nat) (which : string) (data : tree mats)
  : result (tree (list (list R)) * tree (list (list (list B)))) :=
  let* t := jmapM (pairs_leaf num_eig which) data in
  match leaves t with
  | [] => Err TypeError
  | _ => let* e := jmapM (fun l => Ok (map fst l)) t in
         let* v := jmapM (fun l => Ok (map the_vectors l)) t in Ok (e, v)
  end.
End Entries.

(** eigen_util.py L10-27 (also the whole of [compile] of the three modules). *)
Definition valid_shape (num_eig : option nat) (s : list nat) : bool :=
  match s with
  | [a; b] => (a =? b) && match num_eig with None => true | Some k => k <=? a end
  | _ => false
  end.
Definition validate (num_eig : option nat) (shapes : tree (list nat)) : result unit :=
  if forallb (valid_shape num_eig) (leaves shapes) then Ok tt else Err ValueError.

(** [input_shape[0]] (eigenvalues.py L154): an int for a single array, an entry
    for a list or tuple; dictionaries have string keys.  The tuple built from
    it is a shape for an int, and a tuple of an entry otherwise. *)
Definition one_tuple (input_shape : tree (list nat)) : result (tree (list nat)) :=
  match input_shape with
  | Leaf (n :: _) => Ok (Leaf [n])
  | Leaf [] => Err IndexError
  | Lst (x :: _) | Tup (x :: _) => Ok (Tup [x])
  | Lst [] | Tup [] => Err IndexError
  | Dict _ => Err KeyError
  | NoneT => Err TypeError
  end.
(** A map that puts a tree in the place of each leaf. *)
Fixpoint graft (t : tree (tree (list nat))) : tree (list nat) :=
  match t with
  | Leaf u => u
  | NoneT => NoneT
  | Dict d => Dict (map (fun kv => (fst kv, graft (snd kv))) d)
  | Lst l => Lst (map graft l)
  | Tup l => Tup (map graft l)
  end.
(** eigenvalues.py L150-158. *)
Definition eigenvalues_shape (num_eig : option nat) (input_shape : tree (list nat)) : result (tree (list nat)) :=
  let* _ := validate num_eig input_shape in
  let* t := jmapM (fun _ => match num_eig with Some k => Ok (Leaf [k]) | None => one_tuple input_shape end) input_shape in
  Ok (graft t).
(** eigenvectors.py L154-163. *)
Definition eigenvectors_shape (num_eig : option nat) (input_shape : tree (list nat)) : result (tree (list nat)) :=
  let* _ := validate num_eig input_shape in
  jmapM (fun s => match s with n :: _ => Ok [n; match num_eig with Some k => k | None => n end] | [] => Err IndexError end) input_shape.
(** eigensystem.py L161-212. *)
Definition eigensystem_shape (num_eig : option nat) (input_shape : tree (list nat)) : result (tree (list nat) * tree (list nat)) :=
  let* _ := validate num_eig input_shape in
  let* t := jmapM (fun s => match rev s with n :: _ => let k := match num_eig with Some k => k | None => n end in Ok ([k], [n; k]) | [] => Err IndexError end) input_shape in
  match leaves t with
  | [] => Err TypeError
  | _ => let* e := jmapM (fun p => Ok (fst p)) t in let* v := jmapM (fun p => Ok (snd p)) t in Ok (e, v)
  end.
