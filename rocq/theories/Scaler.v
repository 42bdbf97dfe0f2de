(** Feature scalers (parametricmatrixmodels/preprocessing/standard_scaler.py,
    minmax_scaler.py, robust_scaler.py, mixed_scaler.py).

    Simplifications:
    - real arithmetic instead of floating point; [None] is a value that is not a
      finite number (division by zero);
    - a leaf of the data is a batch of samples, each a flattened row of features;
      the statistics of a leaf are rows as well;
    - the data passed to transform must have the same structure, and the same
      number of features per leaf, as those passed to fit (otherwise ValueError
      here; numpy would broadcast a single feature). *)
From Coq Require Import Reals.
From Verif Require Import Base TreeUtil Serial.
Local Open Scope R_scope.
Local Open Scope list_scope.

Notation num := (option R).
Definition lift2 (f : R -> R -> R) (a b : num) : num :=
  match a, b with Some x, Some y => Some (f x y) | _, _ => None end.
Definition nadd := lift2 Rplus.
Definition nsub := lift2 Rminus.
Definition nmul := lift2 Rmult.
Definition ndiv (a b : num) : num :=
  match a, b with
  | Some x, Some y => if Req_EM_T y 0 then None else Some (x / y)
  | _, _ => None
  end.

Record batch := mk_batch { width : nat; rows : list (list num) }.
Definition col (X : batch) (j : nat) : list num := map (fun r => nth j r None) (rows X).

(** [np.mean(x, axis=0)], [np.std(x, axis=0)], [np.min], [np.max] of one
    feature. *)
Fixpoint nsum (l : list num) : num := match l with [] => Some 0 | x :: l' => nadd x (nsum l') end.
Definition mean1 (l : list num) : num := ndiv (nsum l) (Some (INR (length l))).
Definition nsqrt (a : num) : num := match a with Some x => Some (sqrt x) | None => None end.
Definition std1 (l : list num) : num :=
  let m := mean1 l in nsqrt (mean1 (map (fun x => let d := nsub x m in nmul d d) l)).
Definition nmin := lift2 Rmin.
Definition nmax := lift2 Rmax.
Definition fold1 (f : num -> num -> num) (l : list num) : num :=
  match l with [] => None | x :: l' => fold_left f l' x end.
Definition min1 := fold1 nmin.
Definition max1 := fold1 nmax.

Definition per_feature (f : list num -> num) (X : batch) : list num := map (fun j => f (col X j)) (seq 0 (width X)).

(** An elementwise operation of a batch with rows of statistics. *)
Fixpoint zip3 {A B C D} (f : A -> B -> C -> D) (l : list A) (m : list B) (n : list C) : list D :=
  match l, m, n with
  | x :: l', y :: m', z :: n' => f x y z :: zip3 f l' m' n'
  | _, _, _ => []
  end.
Definition with_stats (f : num -> num -> num -> num) (X : batch) (a b : list num) : result batch :=
  if (length a =? width X)%nat && (length b =? width X)%nat
  then Ok (mk_batch (width X) (map (fun r => zip3 f r a b) (rows X)))
  else Err ValueError.

(** [jax.tree.map(f, X, s)]: new dictionaries have sorted keys. *)
Definition jzipM {X Y Z} (f : X -> Y -> result Z) (t : tree X) (u : tree Y) : result (tree Z) :=
  let* r := tzipM f t u in jmapM (fun z => Ok z) r.

(* ------------------------------------------------------------------ *)
(** * StandardScaler *)

(** L44-45: both statistics of each leaf. *)
Definition std_fit (X : tree batch) : result (tree (list num * list num)) :=
  jmapM (fun x => Ok (per_feature mean1 x, per_feature std1 x)) X.
(** L71-76. *)
Definition std_transform (s : option (tree (list num * list num))) (X : tree batch) : result (tree batch) :=
  match s with
  | None => Err RuntimeError
  | Some s => jzipM (fun x ms => with_stats (fun v m sc => ndiv (nsub v m) sc) x (fst ms) (snd ms)) X s
  end.
(** L101-106. *)
Definition std_inverse (s : option (tree (list num * list num))) (X : tree batch) : result (tree batch) :=
  match s with
  | None => Err RuntimeError
  | Some s => jzipM (fun x ms => with_stats (fun v m sc => nadd (nmul v sc) m) x (fst ms) (snd ms)) X s
  end.

(* ------------------------------------------------------------------ *)
(** * MinMaxScaler *)

(** The feature range: one number for everything ([np.isscalar]) or, per leaf,
    None or a row (a number is a row of equal entries). *)
Inductive bound := BAll (v : R) | BTree (t : tree (option (list num))).
Definition mm_fit (X : tree batch) : result (tree (list num * list num)) :=        (* L86-87 *)
  jmapM (fun x => Ok (per_feature min1 x, per_feature max1 x)) X.
(** L112-119. *)
Definition mm_bound (b : bound) (s : tree (list num * list num)) : result (tree (option (list num))) :=
  match b with
  | BAll v => jmapM (fun ms => Ok (Some (map (fun _ => Some v) (fst ms)))) s
  | BTree t => Ok t
  end.
Fixpoint zip5 {A B C D E F} (f : A -> B -> C -> D -> E -> F) l m n o p : list F :=
  match l, m, n, o, p with
  | x :: l', y :: m', z :: n', u :: o', v :: p' => f x y z u v :: zip5 f l' m' n' o' p'
  | _, _, _, _, _ => []
  end.
Definition mm_leaf (f : num -> num -> num -> num -> num -> num) (x : batch)
    (q : (list num * list num) * (option (list num) * option (list num))) : result batch :=
  let '((a, b), (lo, hi)) := q in
  match lo, hi with
  | Some lo, Some hi =>
      if forallb (fun l => (length l =? width x)%nat) [a; b; lo; hi]
      then Ok (mk_batch (width x) (map (fun r => zip5 f r a b lo hi) (rows x)))
      else Err ValueError
  | _, _ => Ok x
  end.
Definition mm_apply (f : num -> num -> num -> num -> num -> num) (lo hi : bound)
    (s : option (tree (list num * list num))) (X : tree batch) : result (tree batch) :=
  match s with
  | None => Err RuntimeError
  | Some s =>
      let* lo := mm_bound lo s in
      let* hi := mm_bound hi s in
      let* lh := jzipM (fun a b => Ok (a, b)) lo hi in
      let* q := jzipM (fun a b => Ok (a, b)) s lh in
      jzipM (mm_leaf f) X q
  end.
(** L121-135 and L169-185. *)
Definition mm_transform := mm_apply (fun x dmin dmax lo hi =>
  nadd (nmul (ndiv (nsub x dmin) (nsub dmax dmin)) (nsub hi lo)) lo).
Definition mm_inverse := mm_apply (fun x dmin dmax lo hi =>
  nadd (nmul (ndiv (nsub x lo) (nsub hi lo)) (nsub dmax dmin)) dmin).

(* ------------------------------------------------------------------ *)
(** * RobustScaler *)

(** The fitted scale of a leaf is the number 1.0 (L154: no scaling) or a row
    (L152); the fitted median is 0.0 or a row (L163). *)
Inductive rstat := RNum (x : R) | RRow (l : list num).
Definition row_of (w : nat) (s : rstat) : list num :=
  match s with RNum x => repeat (Some x) w | RRow l => l end.
(** The truth value of [np.abs(scale) > self.eps]: an array of more than one
    entry has none (an empty one is false). A value that is not finite compares
    as false here (nan; infinite scales do not occur). *)
Definition big (eps : R) (a : num) : bool :=
  match a with Some x => if Rlt_dec eps (Rabs x) then true else false | None => false end.
Definition scale_big (eps : R) (s : rstat) : result bool :=
  match s with
  | RNum x => Ok (big eps (Some x))
  | RRow [] => Ok false
  | RRow [a] => Ok (big eps a)
  | RRow (_ :: _ :: _) => Err ValueError
  end.
(** L192-201, L226-235. *)
Definition rob_transform (eps : R) (s : option (tree (rstat * rstat))) (X : tree batch) : result (tree batch) :=
  match s with
  | None => Err RuntimeError
  | Some s => jzipM (fun x ms =>
      let* b := scale_big eps (snd ms) in
      with_stats (fun v m sc => if b then ndiv (nsub v m) sc else nsub v m)
                 x (row_of (width x) (fst ms)) (row_of (width x) (snd ms))) X s
  end.
Definition rob_inverse (eps : R) (s : option (tree (rstat * rstat))) (X : tree batch) : result (tree batch) :=
  match s with
  | None => Err RuntimeError
  | Some s => jzipM (fun x ms =>
      let* b := scale_big eps (snd ms) in
      with_stats (fun v m sc => if b then nadd (nmul v sc) m else nadd v m)
                 x (row_of (width x) (fst ms)) (row_of (width x) (snd ms))) X s
  end.

(** L128-166: fitting. [quant] and [med] are [np.quantile]/[np.median] of one
    feature. The quantiles and the two switches are trees: [jax.tree.map]
    requires them to have the structure of the data. *)
Definition rob_fit (quant : R -> list num -> num) (med : list num -> num)
    (qlow qhigh : tree (option R)) (centering scaling : tree bool) (X : tree batch) : result (tree (rstat * rstat)) :=
  let* q := jzipM (fun a b => Ok (a, b)) qlow qhigh in
  let* sw := jzipM (fun a b => Ok (a, b)) centering scaling in
  let* qs := jzipM (fun a b => Ok (a, b)) q sw in
  jzipM (fun x c =>
    let '((ql, qh), (ce, sc)) := c in
    let scale := match ql, qh, sc with
                 | Some ql, Some qh, true =>
                     RRow (map (fun j => nsub (quant qh (col x j)) (quant ql (col x j))) (seq 0 (width x)))
                 | _, _, _ => RNum 1
                 end in
    Ok (if ce : bool then RRow (per_feature med x) else RNum 0, scale)) X qs.

(* ------------------------------------------------------------------ *)
(** * MixedScaler *)

(** A scaler object: its two functions on data trees (after fitting). The tree
    of scalers is a prefix of the data: each scaler gets the subtree at its
    place; None entries leave it alone (L93-106, L131-144). *)
Record scaler := mk_scaler { s_tr : tree batch -> result (tree batch); s_inv : tree batch -> result (tree batch) }.
Fixpoint prefix_map (f : scaler -> tree batch -> result (tree batch)) (t : tree scaler) (X : tree batch) {struct t} : result (tree batch) :=
  match t, X with
  | Leaf s, _ => f s X
  | NoneT, _ => Ok X
  | Dict d, Dict e =>
      if (length d =? length e)%nat then
        let* r := (fix go d := match d with
                               | [] => Ok []
                               | (k, s) :: d' =>
                                   match dget e k with
                                   | Some x => let* y := prefix_map f s x in let* r := go d' in Ok ((k, y) :: r)
                                   | None => Err ValueError
                                   end
                               end) d in
        Ok (Dict (sort_kvs r))
      else Err ValueError
  | Lst l, Lst m =>
      let* r := (fix go l m := match l, m with
                               | [], [] => Ok []
                               | s :: l', x :: m' => let* y := prefix_map f s x in let* r := go l' m' in Ok (y :: r)
                               | _, _ => Err ValueError
                               end) l m in
      Ok (Lst r)
  | Tup l, Tup m =>
      let* r := (fix go l m := match l, m with
                               | [], [] => Ok []
                               | s :: l', x :: m' => let* y := prefix_map f s x in let* r := go l' m' in Ok (y :: r)
                               | _, _ => Err ValueError
                               end) l m in
      Ok (Tup r)
  | _, _ => Err ValueError
  end.
Definition mixed_transform (t : option (tree scaler)) (X : tree batch) : result (tree batch) :=
  match t with None => Ok X | Some t => prefix_map s_tr t X end.
Definition mixed_inverse (t : option (tree scaler)) (X : tree batch) : result (tree batch) :=
  match t with None => Ok X | Some t => prefix_map s_inv t X end.
