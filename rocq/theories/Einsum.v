(** Einsum modules (parametricmatrixmodels/modules/einsum.py): the subscript
    string built from the user's notation and the shapes of the data, the sizes
    of the indices, the announced shape, and the computation.

    Simplifications:
    - the notation is a tree of strings (a bare string is a leaf);
    - a shape of the data is a [Leaf] of the shape tree; None and () inside the
      tree of shapes are left out;
    - elements of a notation triple of another type than the annotated one are
      a TypeError (the code fails later with some exception);
    - numbers are any type with the operations of a ring; dtypes are left out. *)
From Verif Require Import Base TreeUtil Seq TrainArgs NdArray OneHot.
Local Open Scope string_scope.
Local Open Scope list_scope.
Local Open Scope nat_scope.

Definition chars (s : string) : list ascii := list_ascii_of_string s.
(** L493 without the comma. *)
Definition alphabet : list ascii := chars "abcdefghijklmnopqrstuvwxyzABCDEFGHIJKLMNOPQRSTUVWXYZ".
Definition comma : ascii := ","%char.
Definition mem_char (c : ascii) (l : list ascii) : bool := existsb (Ascii.eqb c) l.
Definition is_letter (c : ascii) : bool := mem_char c alphabet.
(** [s.isalpha()]. *)
Definition isalpha (s : string) : bool := negb (String.eqb s "") && forallb is_letter (chars s).
(** L495-501. *)
Definition valid_chars (s : string) : bool := forallb (fun c => is_letter c || Ascii.eqb c comma) (chars s).

(** [s.split("->")]. *)
Fixpoint split_arrow (s : string) : list string :=
  match s with
  | EmptyString => [EmptyString]
  | String c s' =>
      let rest := match split_arrow s' with p :: ps => String c p :: ps | [] => [String c EmptyString] end in
      match s' with
      | String d s'' => if Ascii.eqb c "-" && Ascii.eqb d ">" then EmptyString :: split_arrow s'' else rest
      | EmptyString => rest
      end
  end.

(** A string or None. *)
Definition opt_str (t : tree string) : result (option string) :=
  match t with Leaf s => Ok (Some s) | NoneT => Ok None | _ => Err TypeError end.

(** L337-415: leading, input and output subscripts. *)
Definition classify (e : tree string) (shapes : tree (list nat)) : result (option string * tree string * option string) :=
  match e with
  | NoneT => Err ValueError
  | _ =>
      if same_struct e shapes then Ok (None, e, None)
      else match e with
           | Tup [a; b; c] => let* l := opt_str a in let* o := opt_str c in Ok (l, b, o)
           | Tup [Leaf _; Leaf _] => Err ValueError
           | Tup [Leaf l; t] => Ok (Some l, t, None)
           | Tup [t; Leaf o] => Ok (None, t, Some o)
           | Leaf _ => Ok (None, e, None)
           | _ => Err ValueError
           end
  end.

(** L419-424. *)
Definition cut_output (ins : tree string) (out : option string) : result (tree string * option string) :=
  match out, ins with
  | None, Leaf s => match split_arrow s with
                    | [_] => Ok (ins, None)
                    | [a; b] => Ok (Leaf a, Some b)
                    | _ => Err ValueError
                    end
  | _, _ => Ok (ins, out)
  end.
(** L428-442: [n] is the number of arrays. *)
Definition cut_leading (n : nat) (lead : option string) (ins : tree string) : option string * tree string :=
  match lead, ins with
  | None, Leaf s =>
      let l := split comma s in
      if n <? length l then (Some (join comma (firstn (length l - n) l)), Leaf (join comma (skipn (length l - n) l)))
      else (None, ins)
  | _, _ => (lead, ins)
  end.
(** L450-510: the checks. *)
Definition check_text (has_params : bool) (lead : option string) (ins : tree string) (out : option string) : result unit :=
  let* _ := match ins with Leaf _ => Ok tt | t => require (forallb isalpha (leaves t)) ValueError end in
  let* _ := match lead with None => require (negb has_params) ValueError | Some _ => Ok tt end in
  let* _ := match out with Some o => require (negb (mem_char comma (chars o)) && (length (split_arrow o) =? 1)) ValueError | None => Ok tt end in
  let* _ := match lead with Some l => require (valid_chars l) ValueError | None => Ok tt end in
  let* _ := match out with Some o => require (valid_chars o) ValueError | None => Ok tt end in
  require (forallb valid_chars (leaves ins)) ValueError.
(** L513-527: one string per operand. *)
Definition operand_strs (shapes : tree (list nat)) (ins : tree string) : result (list string) :=
  match ins with
  | Leaf s => Ok (split comma s)
  | t => let* us := flatten_up_to (treedef shapes) t in Ok (concat (map leaves us))
  end.
(** L530-540. *)
Definition reduce_strs (l : list string) : string :=
  fold_left (fun carry s => if String.eqb carry "" then s else append carry (String comma s)) l "".

(** L546-565: the letters that occur once, sorted. *)
Definition ascii_leb (a b : ascii) : bool := nat_of_ascii a <=? nat_of_ascii b.
Definition count (c : ascii) (l : list ascii) : nat := count_occ ascii_dec l c.
Definition not_commas (l : list ascii) : list ascii := filter (fun c => negb (Ascii.eqb c comma)) l.
Definition once (l : list ascii) : list ascii :=
  filter (fun c => count c l =? 1) (isort ascii_leb (nodup ascii_dec l)).
Definition opt_or_empty (o : option string) : string := match o with Some s => s | None => "" end.

(** L295-612. *)
Definition concrete_einsum_str (has_params : bool) (e : tree string) (shapes : tree (list nat)) : result string :=
  let* q := classify e shapes in
  let '(lead, ins, out) := q in
  let* io := cut_output ins out in
  let '(ins, out) := io in
  let '(lead, ins) := cut_leading (length (leaves shapes)) lead ins in
  let* _ := check_text has_params lead ins out in
  let* strs := operand_strs shapes ins in
  let input_str := reduce_strs strs in
  let letters := not_commas (chars (append (opt_or_empty lead) input_str)) in
  let out := match out with Some o => o | None => string_of_list_ascii (once letters) end in
  match find (fun c => negb (mem_char c (letters ++ chars out))) alphabet with                       (* L569-584 *)
  | None => Err ValueError
  | Some batch =>
      let l := split comma input_str in
      let* _ := require (forallb (fun p => slen (fst p) =? length (snd p)) (combine l (leaves shapes))) ValueError in (* L588-601 *)
      let full := append (join comma (map (String batch) l)) (append "->" (String batch out)) in                  (* L605-612 *)
      Ok (match lead with Some s => append s (String comma full) | None => full end)
  end.

(* ------------------------------------------------------------------ *)
(** * Sizes of the indices *)
Notation sizes := (list (ascii * nat)).
Fixpoint size_of (d : sizes) (c : ascii) : option nat :=
  match d with [] => None | (b, n) :: d' => if Ascii.eqb c b then Some n else size_of d' c end.
(** L233-243, L267-277: the letters of one operand. *)
Definition bind_size (d : sizes) (cn : ascii * nat) : result sizes :=
  match size_of d (fst cn) with
  | None => Ok (d ++ [cn])
  | Some m => if m =? snd cn then Ok d else Err ValueError
  end.
Definition bind_operand (d : sizes) (p : list ascii * list nat) : result sizes :=
  if length (fst p) =? length (snd p) then rfold bind_size (combine (fst p) (snd p)) d else Err ValueError.

(** [concrete.split("->")] and the input strings. *)
Definition parse (full : string) : result (list (list ascii) * list ascii) :=
  match split_arrow full with
  | [i; o] => Ok (map chars (split comma i), chars o)
  | _ => Err ValueError
  end.
(** [s.replace(c, "")]. *)
Definition without (c : ascii) (l : list ascii) : list ascii := filter (fun d => negb (Ascii.eqb d c)) l.
(** [l[:-n]], [l[-n:]]. *)
Definition all_but_last {A} (n : nat) (l : list A) : list A := if n =? 0 then [] else firstn (length l - n) l.
Definition last_ones {A} (n : nat) (l : list A) : list A := if n =? 0 then l else skipn (length l - n) l.

(** The parameters: none, one array, or several. *)
Inductive pars (V : Type) := NoPars | OnePar (a : arr V) | ManyPars (l : list (arr V)).
Arguments NoPars {V}. Arguments OnePar {V}. Arguments ManyPars {V}.
Definition par_list {V} (p : pars V) : list (arr V) := match p with NoPars => [] | OnePar a => [a] | ManyPars l => l end.
Definition some_pars {V} (p : pars V) : bool := match p with NoPars | ManyPars [] => false | _ => true end.

(** L182-293.  With several parameter arrays the code takes the arrays
    themselves for their shapes (L249-251): a letter count other than the first
    axis is a ValueError; otherwise letters are bound to rows, and comparing a
    row with a size fails.  All of this is a ValueError here; a result with rows
    instead of sizes, possible if no letter is shared, is left out. *)
Definition dimension_map {V} (given : option sizes) (p : pars V) (full : string) (shapes : tree (list nat)) : result sizes :=
  let* io := parse full in
  let '(ins, out) := io in
  match out with
  | [] => Err IndexError
  | batch :: _ =>
      let ins := map (without batch) ins in
      let n := length (leaves shapes) in
      let leading := all_but_last n ins in
      let* d := rfold bind_operand (combine (last_ones n ins) (leaves shapes)) (match given with Some g => g | None => [] end) in
      let* d := match p with
                | NoPars => Ok d
                | OnePar a => if length leading =? 1 then rfold bind_operand (combine leading [shp a]) d else Err ValueError
                | ManyPars [] => if length leading =? 0 then Ok d else Err ValueError
                | ManyPars _ => Err ValueError
                end in
      if forallb (fun c => match size_of d c with Some _ => true | None => false end) (without batch (concat ins ++ out))
      then Ok d else Err ValueError
  end.
(** L778-787. *)
Definition out_sizes (d : sizes) (l : list ascii) : result (list nat) :=
  rmapM (fun c => match size_of d c with Some n => Ok n | None => Err KeyError end) l.
Definition einsum_shape {V} (e : tree string) (given : option sizes) (p : pars V) (shapes : tree (list nat)) : result (list nat) :=
  let* full := concrete_einsum_str (some_pars p) e shapes in
  let* d := dimension_map given p full shapes in
  let* io := parse full in
  out_sizes d (tl (snd io)).

(* ------------------------------------------------------------------ *)
(** * The computation *)
Section Compute.
Context {V : Type} (zero one : V) (add mul : V -> V -> V).

Definition index_in (d : sizes) (c : ascii) : nat := match size_of d c with Some n => n | None => 0 end.
Fixpoint vsum (l : list V) : V := match l with [] => zero | x :: l' => add x (vsum l') end.
Fixpoint vprod (l : list V) : V := match l with [] => one | x :: l' => mul x (vprod l') end.
(** Nested sums over the given letters. *)
Fixpoint sum_over (ls : sizes) (env : sizes) (body : sizes -> V) : V :=
  match ls with
  | [] => body env
  | (c, n) :: ls' => vsum (map (fun i => sum_over ls' ((c, i) :: env) body) (seq 0 n))
  end.
Definition entry (a : arr V) (idx : list nat) : V := nth (ravel (shp a) idx) (dat a) zero.
(** jax.numpy.einsum: letters not in the output are summed over (here in the
    order of the alphabet; the order of a finite sum does not matter).  Axes of
    size one are not broadcast. *)
Definition np_einsum (ins : list (list ascii)) (out : list ascii) (ars : list (arr V)) : result (arr V) :=
  if length ins =? length ars then
    let* d := rfold bind_operand (combine ins (map shp ars)) [] in
    let all := isort ascii_leb (nodup ascii_dec (concat ins)) in
    if forallb (fun c => mem_char c all) out && (length (nodup ascii_dec out) =? length out) then
      let summed := filter (fun c => negb (mem_char c out)) all in
      let oshape := map (index_in d) out in
      Ok (mk_arr oshape (map (fun k =>
            sum_over (map (fun c => (c, index_in d c)) summed) (combine out (unravel oshape k))
              (fun env => vprod (map (fun p => entry (snd p) (map (index_in env) (fst p))) (combine ins ars))))
            (seq 0 (prod oshape))))
    else Err ValueError
  else Err ValueError.

(** L626-680: the compiled module applied to data. *)
Definition einsum_call (e : tree string) (p : pars V) (shapes : tree (list nat)) (data : tree (arr V)) : result (arr V) :=
  let* full := concrete_einsum_str (some_pars p) e shapes in
  let* io := parse full in
  np_einsum (fst io) (snd io) (par_list p ++ leaves data).
End Compute.
