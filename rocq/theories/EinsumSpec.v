(** What the notation of an Einsum module means, without reference to how the
    module rewrites it. *)
From Coq Require Import Sorted.
From Verif Require Import Base TreeUtil TreeSpec Seq SerialSpec SeqProofs.
Local Open Scope string_scope.
Local Open Scope list_scope.
Local Open Scope nat_scope.

Definition letter (c : ascii) : Prop :=
  97 <= nat_of_ascii c <= 122 \/ 65 <= nat_of_ascii c <= 90.
Definition occurs (c : ascii) (s : string) : Prop := In c (list_ascii_of_string s).
Definition word (s : string) : Prop := forall c, occurs c s -> letter c.

(** Strings separated by commas. *)
Fixpoint commas (l : list string) : string :=
  match l with
  | [] => ""
  | [s] => s
  | s :: l' => (s ++ "," ++ commas l')%string
  end.

Definition says (t : tree string) (o : option string) : Prop :=
  match o with Some s => t = Leaf s | None => t = NoneT end.
Definition bare (t : tree string) : Prop := exists s, t = Leaf s.
Definition alike {X Y} (t : tree X) (u : tree Y) : Prop := trel (fun _ _ => True) t u.

(** The five forms of the notation: a string; a tree of strings like the data;
    a triple; leading string and tree; tree and output string. *)
Inductive notation (shapes : tree (list nat)) : tree string -> option string -> tree string -> option string -> Prop :=
| n_text s : notation shapes (Leaf s) None (Leaf s) None
| n_tree e : alike e shapes -> notation shapes e None e None
| n_triple a b c l o : ~ alike (Tup [a; b; c]) shapes -> says a l -> says c o -> notation shapes (Tup [a; b; c]) l b o
| n_lead l t : ~ alike (Tup [Leaf l; t]) shapes -> ~ bare t -> notation shapes (Tup [Leaf l; t]) (Some l) t None
| n_out t o : ~ alike (Tup [t; Leaf o]) shapes -> ~ bare t -> notation shapes (Tup [t; Leaf o]) None t (Some o).

(** The operands: the leading ones (None: there are none), those of the data,
    and the output if it is written.  A string for the inputs may contain the
    output after an arrow; if no leading string is given separately, the
    strings in front of the last ones, one per array, are the leading ones.  A
    tree has the string of an array at the place of the array. *)
Inductive operands (shapes : tree (list nat)) : option string -> tree string -> option string ->
    option (list string) -> list string -> option string -> Prop :=
| o_arrow l a o L I : operands shapes l (Leaf a) (Some o) L I (Some o) ->
    operands shapes l (Leaf (a ++ "->" ++ o)%string) None L I (Some o)
| o_given L I o : I <> [] -> L <> [] -> operands shapes (Some (commas L)) (Leaf (commas I)) o (Some L) I o
| o_split L I o : L <> [] -> length I = length (leaves shapes) ->
    operands shapes None (Leaf (commas (L ++ I))) o (Some L) I o
| o_whole I o : I <> [] -> length I <= length (leaves shapes) ->
    operands shapes None (Leaf (commas I)) o None I o
| o_tree t us o : ~ bare t -> Forall2 (fun p u => walk t p = Some u) (poss (treedef shapes)) us ->
    operands shapes None t o None (concat (map leaves us)) o
| o_tree_given t us L o : L <> [] -> ~ bare t -> Forall2 (fun p u => walk t p = Some u) (poss (treedef shapes)) us ->
    operands shapes (Some (commas L)) t o (Some L) (concat (map leaves us)) o.

Definition leading (L : option (list string)) : list string := match L with Some l => l | None => [] end.

(** How often a letter is written. *)
Definition times (c : ascii) (l : list string) : nat :=
  list_sum (map (fun s => count_occ ascii_dec (list_ascii_of_string s) c) l).
(** The output meant when it is omitted. *)
Definition omitted (l : list string) (o : string) : Prop :=
  StronglySorted (fun a b => nat_of_ascii a < nat_of_ascii b) (list_ascii_of_string o) /\
  forall c, occurs c o <-> times c l = 1.
Definition output_of (l : list string) (O : option string) (o : string) : Prop :=
  match O with Some o' => o = o' | None => omitted l o end.

(** The subscripts with the batch index [b]. *)
Definition batched (L I : list string) (o : string) (b : ascii) : string :=
  (commas (L ++ map (String b) I)%list ++ "->" ++ String b o)%string.
Definition fresh (b : ascii) (l : list string) : Prop := forall s, In s l -> ~ occurs b s.
