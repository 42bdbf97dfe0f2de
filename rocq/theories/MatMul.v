(** MatMul modules (parametricmatrixmodels/modules/matmul.py): the subscripts and
    sizes handed to the Einsum module they derive from, and Einsum's compile
    (parametricmatrixmodels/modules/einsum.py L682-775).

    Simplifications:
    - a shape of the data is a [Leaf] of the shape tree; None and () inside the
      tree of shapes are left out; separators are single characters;
    - a path to a subtree instead of an array is a ValueError (the code goes on
      with a tuple of tuples and fails later);
    - None in the inferred size of the parameter matrix is a TypeError (the code
      fails later, when the matrix is drawn);
    - the random initial parameters are a function of their shape. *)
From Verif Require Import Base TreeUtil TreeSpec Seq TrainArgs NdArray OneHot Einsum.
Local Open Scope string_scope.
Local Open Scope list_scope.
Local Open Scope nat_scope.

(** output_shape: an int or a tuple. *)
Inductive outspec := OInt (n : nat) | OTup (l : list (option nat)).

Section MatMul.
Context {V : Type}.
(** The constructor's arguments, L62-131. *)
Record matmul := mk_matmul {
  mm_par : option (arr V); mm_train : bool; mm_out : option outspec;
  mm_order : option (list string); mm_sep : ascii }.

Definition double_sep (m : matmul) : string := String (mm_sep m) (String (mm_sep m) "").   (* L176 *)
Definition is_some {A} (o : option A) : bool := match o with Some _ => true | None => false end.
Fixpoint distinct (l : list string) : bool :=
  match l with [] => true | s :: l' => negb (existsb (String.eqb s) l') && distinct l' end.
(** L164-174 *)
Definition check_dims (shapes : tree (list nat)) : result unit :=
  let ndims := map (@length nat) (leaves shapes) in
  let* _ := require (forallb (fun n => (n =? 1) || (n =? 2)) ndims) ValueError in
  require (length (filter (Nat.eqb 1) ndims) <=? 1) ValueError.
(** L179-212: the shapes in path order, None for the parameters.  A shape is not a
    container, so the lookup does not have to be told that it is a leaf. *)
Definition slots (m : matmul) (shapes : tree (list nat)) : result (list (option (list nat))) :=
  match mm_order m with
  | None => Ok ((if mm_train m || is_some (mm_par m) then [None] else []) ++ map Some (leaves shapes))
  | Some ps =>
      let* _ := require (distinct ps) ValueError in
      let* l := rmapM (fun p => if String.eqb p (double_sep m) then Ok None
                                else let* tr := getitem (mm_sep m) no_leaf false shapes p in
                                     match fst tr with Leaf s => Ok (Some s) | _ => Err ValueError end) ps in
      let* _ := require (length (leaves shapes) =? length (filter is_some l)) ValueError in
      Ok l
  end.
Fixpoint none_index (l : list (option (list nat))) : option nat :=
  match l with [] => None | None :: _ => Some 0 | Some _ :: l' => option_map S (none_index l') end.
(** [l[i]] and [l[i][k]]. *)
Definition at_index {A} (l : list A) (i : nat) : result A := match nth_error l i with Some x => Ok x | None => Err IndexError end.
Definition size_at (l : list (option (list nat))) (i k : nat) : result nat :=
  let* s := at_index l i in match s with Some s => at_index s k | None => Err TypeError end.
Definition known (o : option nat) : result nat := match o with Some n => Ok n | None => Err TypeError end.
(** L215-279: place and shape of a parameter matrix that is not there yet. *)
Definition infer_shape (m : matmul) (l : list (option (list nat))) : result (nat * list nat) :=
  match none_index l with
  | None => Err ValueError
  | Some i =>
      if i =? 0 then
        match mm_out m with
        | None => Err ValueError
        | Some o => let* r := match o with OInt n => Ok n | OTup t => let* x := at_index t 0 in known x end in
                    let* c := size_at l 1 0 in Ok (i, [r; c])
        end
      else if i =? length l - 1 then
        match mm_out m with
        | None => let* r := size_at l (length l - 2) 1 in Ok (i, [r])
        | Some (OInt n) => let* f := size_at l 0 0 in
                           if n =? f then let* r := size_at l (length l - 2) 1 in Ok (i, [r]) else Err ValueError
        | Some (OTup t) => let* x := at_index t 0 in
                           let* f := size_at l 0 0 in
                           if match x with Some n => n =? f | None => false end then
                             let* r := size_at l (length l - 2) 1 in
                             let* c := at_index t 1 in let* c := known c in Ok (i, [r; c])
                           else Err ValueError
        end
      else let* r := size_at l (i - 1) 1 in let* c := size_at l (i + 1) 0 in Ok (i, [r; c])
  end.
(** L280-294 *)
Definition param_slot (m : matmul) (l : list (option (list nat))) : result (option (nat * list nat)) :=
  match mm_par m with
  | Some a => match none_index l with Some i => Ok (Some (i, shp a)) | None => Err ValueError end
  | None => if mm_train m then let* q := infer_shape m l in Ok (Some q)
            else match none_index l with Some _ => Err ValueError | None => Ok None end
  end.
(** L296-298 *)
Definition fill_slots (q : option (nat * list nat)) (l : list (option (list nat))) : list (list nat) :=
  map (fun o => match o, q with Some s, _ => s | None, Some q => snd q | None, None => [] end) l.
(** L301-308: no vector before the last operand. *)
Definition check_vectors (l : list (list nat)) : result unit :=
  require (forallb (fun s => negb (length s =? 1)) (removelast l)) ValueError.
(** L311-338 *)
Definition check_output (m : matmul) (l : list (list nat)) : result unit :=
  let* first := at_index l 0 in
  let* rows := at_index first 0 in
  let last := last l [] in
  let inferred := rows :: match last with [_; c] => [c] | _ => [] end in
  match mm_out m with
  | None => Ok tt
  | Some (OInt n) => require (n =? rows) ValueError
  | Some (OTup t) => let* _ := require (length t =? length inferred) ValueError in
                     require (forallb (fun p => match fst p with Some n => n =? snd p | None => true end) (combine t inferred)) ValueError
  end.
(** L344-356 *)
Definition index_char (i : nat) : result ascii := at_index alphabet i.
Definition term (i : nat) (s : list nat) : result string :=
  let* a := index_char i in
  if length s =? 2 then let* b := index_char (i + 1) in Ok (String a (String b "")) else Ok (String a "").
Fixpoint terms (i : nat) (l : list (list nat)) : result (list string) :=
  match l with [] => Ok [] | s :: l' => let* t := term i s in let* ts := terms (S i) l' in Ok (t :: ts) end.
Definition param_sizes (q : option (nat * list nat)) : result sizes :=
  match q with
  | None => Ok []
  | Some (i, [r; c]) => let* a := index_char i in let* b := index_char (i + 1) in Ok [(a, r); (b, c)]
  | Some (i, s) => let* a := index_char i in let* r := at_index s 0 in Ok [(a, r)]
  end.
(** L361-382: the operands in the order of the parameters and the leaves.  The
    paths and their places in path_order are put into a new tree. *)
Definition places (m : matmul) (ps : list string) : list (string * nat) :=
  filter (fun pi => negb (String.eqb (fst pi) (double_sep m))) (combine ps (seq 0 (length ps))).
Definition place_tree (m : matmul) (ps : list string) : result (tree nat) :=
  let l := places m ps in
  extend_structure Nat.eqb (mm_sep m) None (map fst l) (FillList (map (fun pi => Leaf (snd pi)) l)).
Definition operand_order (m : matmul) (q : option (nat * list nat)) (n : nat) : result (list nat) :=
  match mm_order m with
  | None => Ok (seq 0 n)
  | Some ps => let* t := place_tree m ps in
               Ok ((match q with Some (i, _) => [i] | None => [] end) ++ leaves t)
  end.
(** L159-390 *)
Definition matmul_subs (m : matmul) (shapes : tree (list nat)) : result (string * sizes) :=
  let* _ := check_dims shapes in
  let* l := slots m shapes in
  let* q := param_slot m l in
  let l := fill_slots q l in
  let* _ := check_vectors l in
  let* _ := check_output m l in
  let* ts := terms 0 l in
  let* d := param_sizes q in
  let* perm := operand_order m q (length ts) in
  let* ts := rmapM (at_index ts) perm in
  Ok (join comma ts, d).

(** einsum.py L682-775: the subscripts and the parameters.  [normal] draws initial
    parameters of a shape. *)
Definition sizes_of (d : sizes) (l : list ascii) : result (list nat) := out_sizes d l.
Definition list_eqb (l m : list nat) : bool := if list_eq_dec Nat.eq_dec l m then true else false.
Definition einsum_compile (e : tree string) (given : option sizes) (train : bool) (p : pars V)
    (normal : list nat -> arr V) (shapes : tree (list nat)) : result (string * pars V) :=
  let* full := concrete_einsum_str (some_pars p) e shapes in
  let* d := dimension_map given p full shapes in
  let* io := parse full in
  let leading := all_but_last (length (leaves shapes)) (fst io) in
  let* p := match leading, p with
            | _ :: _, NoPars =>
                let* _ := require train ValueError in
                let* ss := rmapM (sizes_of d) leading in
                Ok (match ss with [s] => OnePar (normal s) | _ => ManyPars (map normal ss) end)
            | _, _ => Ok p
            end in
  let* _ := match p with
            | NoPars => Ok tt
            | _ => let* ss := rmapM (sizes_of d) leading in
                   let* _ := require (length ss =? length (par_list p)) ValueError in
                   require (forallb (fun sa => list_eqb (fst sa) (shp (snd sa))) (combine ss (par_list p))) ValueError
            end in
  Ok (full, p).

Definition pars_of (o : option (arr V)) : pars V := match o with Some a => OnePar a | None => NoPars end.
(** L151-155 *)
Definition matmul_compile (m : matmul) (normal : list nat -> arr V) (shapes : tree (list nat)) : result (string * pars V) :=
  let* sd := matmul_subs m shapes in
  einsum_compile (Leaf (fst sd)) (Some (snd sd)) (mm_train m) (pars_of (mm_par m)) normal shapes.
(** L144-149 *)
Definition matmul_shape (m : matmul) (shapes : tree (list nat)) : result (list nat) :=
  let* sd := matmul_subs m shapes in
  einsum_shape (Leaf (fst sd)) (Some (snd sd)) (pars_of (mm_par m)) shapes.

(** A compiled module applied to data (einsum.py L626-680), with its parameters. *)
Definition matmul_run (zero one : V) (add mul : V -> V -> V) (m : matmul) (normal : list nat -> arr V)
    (shapes : tree (list nat)) (data : tree (arr V)) : result (pars V * arr V) :=
  let* fp := matmul_compile m normal shapes in
  let* io := parse (fst fp) in
  let* r := np_einsum zero one add mul (fst io) (snd io) (par_list (snd fp) ++ leaves data) in
  Ok (snd fp, r).
End MatMul.
Arguments matmul : clear implicits.
Arguments mk_matmul {V}.
