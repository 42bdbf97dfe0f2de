(** Model of the named loss functions, /repo/parametricmatrixmodels/training.py
    L1741-1971, and of the tree arithmetic they use, tree_util.py L580-870.
    Numbers are exact complex numbers over the reals, or [None] for anything that
    is not finite (infinity and NaN are not told apart). *)
From Coq Require Import Reals.
From Verif Require Import Base TreeUtil NdArray.
Local Open Scope string_scope.
Local Open Scope list_scope.

Definition C : Type := (R * R)%type.
Definition cabs (z : C) : R := sqrt (fst z * fst z + snd z * snd z)%R.
Definition num : Type := option C.
Definition lift2 {A B D} (f : A -> B -> D) (x : option A) (y : option B) : option D :=
  match x, y with Some a, Some b => Some (f a b) | _, _ => None end.
Definition nadd : num -> num -> num := lift2 (fun a b => (fst a + fst b, snd a + snd b)%R).
Definition nsub : num -> num -> num := lift2 (fun a b => (fst a - fst b, snd a - snd b)%R).
Definition nmul : num -> num -> num := lift2 (fun a b => (fst a * fst b - snd a * snd b, fst a * snd b + snd a * fst b)%R).
(** division; by zero it is not finite *)
Definition cinv (z : C) : C :=
  let d := (fst z * fst z + snd z * snd z)%R in (fst z / d, - snd z / d)%R.
Definition is_zero (z : C) : bool :=
  if Req_EM_T (fst z) 0 then (if Req_EM_T (snd z) 0 then true else false) else false.
Definition ninv (x : num) : num :=
  match x with Some z => if is_zero z then None else Some (cinv z) | None => None end.
Definition ndiv (x y : num) : num := nmul x (ninv y).
Definition real (r : R) : num := Some (r, 0%R).

Definition data := tree (arr num).

(** [jax.tree.map(f, t, u)] on two trees that must have the same structure *)
Fixpoint tmap2 {A B D} (f : A -> B -> result D) (t : tree A) (u : tree B) {struct t} : result (tree D) :=
  let fix go (l : list (tree A)) (m : list (tree B)) : result (list (tree D)) :=
    match l, m with
    | [], [] => Ok []
    | x :: l', y :: m' => let* z := tmap2 f x y in let* r := go l' m' in Ok (z :: r)
    | _, _ => Err TypeError
    end in
  match t, u with
  | Leaf a, Leaf b => let* c := f a b in Ok (Leaf c)
  | NoneT, NoneT => Ok NoneT
  | Lst l, Lst m => let* r := go l m in Ok (Lst r)
  | Tup l, Tup m => let* r := go l m in Ok (Tup r)
  | Dict d, Dict e =>
      if (length d =? length e)%nat then
        let* r := (fix gd (l : list (string * tree A)) : result (list (string * tree D)) :=
           match l with
           | [] => Ok []
           | (k, x) :: l' =>
               match dget e k with
               | Some y => let* z := tmap2 f x y in let* r := gd l' in Ok ((k, z) :: r)
               | None => Err TypeError
               end
           end) d in
        Ok (Dict r)
      else Err TypeError
  | _, _ => Err TypeError
  end.
Fixpoint tmap1 {A B} (f : A -> B) (t : tree A) : tree B :=
  match t with
  | Leaf a => Leaf (f a)
  | NoneT => NoneT
  | Dict d => Dict (map (fun kv => (fst kv, tmap1 f (snd kv))) d)
  | Lst l => Lst (map (tmap1 f) l)
  | Tup l => Tup (map (tmap1 f) l)
  end.

(** tree_util.add, sub, mul, div: L603-690 *)
Definition tadd : data -> data -> result data := tmap2 (abin None None nadd).
Definition tsub : data -> data -> result data := tmap2 (abin None None nsub).
Definition tmul : data -> data -> result data := tmap2 (abin None None nmul).
Definition tdiv : data -> data -> result data := tmap2 (abin None None ndiv).
(** tree_util.abs, abs_sqr: L714-755 *)
Definition tabs (t : data) : tree (arr (option R)) := tmap1 (amap (option_map cabs)) t.
Definition tabs_sqr (t : data) : tree (arr (option R)) :=
  tmap1 (amap (option_map (fun z => cabs z * cabs z)%R)) t.

(** the annotation [PyTree[Num[Array, " *d"], " T"]] of mean, scalar_add and
    scalar_mul, checked at run time: all arrays of the tree have one shape *)
Definition list_eqb (l m : list nat) : bool := if list_eq_dec Nat.eq_dec l m then true else false.
Definition one_shape {V} (t : tree (arr V)) : bool :=
  match leaves t with
  | [] => true
  | a :: l => forallb (fun b => list_eqb (shp a) (shp b)) l
  end.
Definition checked {V X} (t : tree (arr V)) (x : X) : result X := if one_shape t then Ok x else Err TypeError.
(** L825-870 *)
Definition scalar_add (t : data) (r : R) : result data := checked t (tmap1 (amap (fun x => nadd x (real r))) t).
Definition scalar_mul (t : data) (r : R) : result data := checked t (tmap1 (amap (fun x => nmul x (real r))) t).

(** tree_util.mean, L580-600: sum of all elements over their number *)
Fixpoint osum (l : list (option R)) : option R :=
  match l with [] => Some 0%R | x :: l' => lift2 Rplus x (osum l') end.
Definition tmean (t : tree (arr (option R))) : result (option R) :=
  let all := concat (map dat (leaves t)) in
  checked t (match length all with
             | 0 => None
             | S _ => option_map (fun s => s / INR (length all))%R (osum all)
             end).

(** *** make_loss_fn *)
Inductive loss :=
| Mse | Mae | PseudoHuber (delta : R) | MseUnc | MaeUnc | Mre | MreUnc | Mrd | MrdUnc
| MseUns | MaeUns | MreUns.

(** [float(s)] *)
Section Names.
Variable parse_float : string -> result R.
Definition make_loss (name : string) : result loss :=
  if name =? "mse" then Ok Mse
  else if name =? "mae" then Ok Mae
  else if startswith name "pseudo_huber" then
    match split ":"%char name with
    | [_] => Ok (PseudoHuber 1%R)
    | [_; d] => let* r := parse_float d in Ok (PseudoHuber r)
    | _ => Err ValueError
    end
  else if name =? "mse_unc" then Ok MseUnc
  else if name =? "mae_unc" then Ok MaeUnc
  else if name =? "mre" then Ok Mre
  else if name =? "mre_unc" then Ok MreUnc
  else if name =? "mrd" then Ok Mrd
  else if name =? "mrd_unc" then Ok MrdUnc
  else if name =? "mse_unsupervised" then Ok MseUns
  else if name =? "mae_unsupervised" then Ok MaeUns
  else if name =? "mre_unsupervised" then Ok MreUns
  else Err ValueError.
End Names.

Definition eps : R := (/ 10000)%R.

(** the pseudo-Huber loss of one number [z = error / delta] *)
Definition huber (delta : R) (x : num) : option R :=
  option_map (fun z => delta * delta * (sqrt (1 + cabs z * cabs z) - 1))%R (ndiv x (real delta)).
(** what each function computes from prediction, targets and uncertainties; for
    the unsupervised ones the target is the input [X].  [1 + tree] and
    [delta**2 * tree] only work on a bare array. *)
Definition eval_loss (l : loss) (P Y U : data) : result (option R) :=
  match l with
  | Mse | MseUns => let* e := tsub P Y in tmean (tabs_sqr e)
  | Mae | MaeUns => let* e := tsub P Y in tmean (tabs e)
  | PseudoHuber delta =>
      let* e := tsub P Y in
      match e with
      | Leaf a => tmean (Leaf (amap (huber delta) a))
      | _ => Err TypeError
      end
  | MseUnc => let* e := tsub P Y in let* q := tdiv e U in tmean (tabs_sqr q)
  | MaeUnc => let* e := tsub P Y in let* q := tdiv e U in tmean (tabs q)
  | Mre | MreUns => let* e := tsub P Y in let* s := scalar_add Y eps in let* q := tdiv e s in tmean (tabs q)
  | MreUnc =>
      let* e := tsub P Y in let* s := scalar_add Y eps in
      let* d := tmul s U in let* q := tdiv e d in tmean (tabs q)
  | Mrd =>
      let* e := tsub P Y in
      let* a := tadd Y P in let* b := scalar_mul a 2%R in let* s := scalar_add b eps in
      let* q := tdiv e s in tmean (tabs q)
  | MrdUnc =>
      let* e := tsub P Y in
      let* a := tadd Y P in let* b := scalar_mul a 2%R in let* s := scalar_add b eps in
      let* d := tmul s U in let* q := tdiv e d in tmean (tabs q)
  end.
