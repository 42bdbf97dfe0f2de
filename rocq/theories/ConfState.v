(** Conformal models as objects: what [calibrate] stores and when, what the other
    methods read, saving and loading
    (parametricmatrixmodels/conformal/conformalizedmodel.py L146-814, L816-1089,
    L1125-1523, L1525-1770).

    This file is about the attributes of the object. All numerical work is done
    by functions that are arguments here ([numerics]); each gets what the code
    reads for it and may fail. (Strata.v, Distance.v, Uncertainty.v and
    Conformal.v say what these functions are.)
    Simplifications:
    - [update_state] is false, so the wrapped model does not change;
    - the check of the features against the mask of continuous ones only warns
      (L361-417) and is left out, as are messages and progress displays;
    - versions agree when loading;
    - the entries of a saved file are numpy's pickles of the values, which come
      back as they were; a string or None comes back as an array without axes
      unless [from_file] unpacks it (L1745-1766). *)
From Verif Require Import Base TreeUtil NonSeqSpec TrainArgs Serial Scaler Strata ScalerFile.
Local Open Scope string_scope.
Local Open Scope list_scope.
Local Open Scope nat_scope.

(** The argument of a sensitivity: a bool or a tree. *)
Inductive flags := FAll (b : bool) | FTree (t : tree bool).
(** The attribute [_name]: None, a string, or (after loading) an array without
    axes that holds one of these. *)
Inductive pyname := PNone | PStr (s : string) | PArr (s : option string).
Inductive name_answer := IsStr (s : string) | IsArray (s : string).

(** The arguments of [calibrate] — L217-245 (those that matter here). *)
Record cargs (D V : Type) := mk_cargs { a_X : tree D; a_Y : option V; a_Xunc : option (tree D); a_Yunc : option V; a_train : option (tree D);
  a_par : flags; a_inp : flags; a_dist : flags; a_cont : option (tree bool); a_sbc : option corrections }.
Arguments mk_cargs {D V}. Arguments a_X {D V}. Arguments a_Y {D V}. Arguments a_Xunc {D V}. Arguments a_Yunc {D V}. Arguments a_train {D V}.
Arguments a_par {D V}. Arguments a_inp {D V}. Arguments a_dist {D V}. Arguments a_cont {D V}. Arguments a_sbc {D V}.

(** The numerical work; numbers of scalers [N], leaves of data [D], other values
    [V], significance levels [A]. *)
Record numerics (N D V A : Type) := mk_numerics {
  n_checks : mdl -> cargs D V -> result unit;                      (* L254-307: shapes *)
  n_params : mdl -> tree unit;                                     (* the structure of the parameters *)
  n_inputs : mdl -> tree unit;                                     (* the structure of the inputs *)
  n_predict : mdl -> tree D -> result V;                           (* L516, L555, L774, L1258 *)
  n_strata : tree bool -> tree D -> result V;                      (* L484-500 *)
  n_strata_fit : V -> tree bool -> tree D -> option V -> V -> result V;     (* L504-515, L527-544 *)
  n_global_fit : tree D -> option V -> V -> result V;              (* L567-573 *)
  n_count_inp : tree D -> tree bool -> tree bool -> result nat;    (* L577-588 *)
  n_count_par : mdl -> tree bool -> result nat;                    (* L592-600 *)
  n_count_dist : tree D -> tree bool -> tree bool -> result nat;   (* L609-622 *)
  n_iqr : tree D -> tree bool -> tree bool -> result V;            (* L652-657 *)
  n_range : tree D -> tree bool -> result V;                       (* L659-661 *)
  n_fit : sobj N -> tree D -> result (sobj N);                     (* L676 *)
  n_kern : scls -> bool -> list (py N) -> D -> list (py N) -> result D;     (* one leaf of L1102 *)
  n_flat : tree D -> V -> tree bool -> result V;                   (* L1103-1121 *)
  n_tree : V -> result V;                                          (* L682-685, L1694-1695: unique points, k-d tree *)
  n_cutoff : V -> A -> result V;                                   (* L689-702 *)
  n_spar : mdl -> tree bool -> option nat -> tree D -> result V;   (* L845-893 *)
  n_sinp : mdl -> option V -> option nat -> option (tree bool) -> tree bool -> tree D -> option (tree D) -> result V;   (* L924-991 *)
  n_sdist : V -> V -> option nat -> V -> result V;                 (* L1049-1078 *)
  n_norm : option V -> V -> result V;                              (* L704-708, L725, L743, L757 *)
  n_div : V -> V -> result V;                                      (* L896, L994, L1081 *)
  n_hchecks : mdl -> tree D -> option (tree D) -> result unit;     (* L1435-1457 *)
  n_zeros : mdl -> tree D -> result V;                             (* L1460-1466 *)
  n_add : V -> V -> result V;                                      (* L1483, L1508 *)
  n_add_dist : V -> V -> result V;                                 (* L1521 *)
  n_bias_strata : V -> V -> V -> tree bool -> tree D -> result V;  (* L792-798, L1287-1321 *)
  n_bias_global : V -> V -> result V;                              (* L803-806, L1334 *)
  n_scores : tree D -> option V -> V -> V -> result V;             (* L808-814 *)
  n_ccheck : mdl -> tree D -> bool;                                (* L1244: the shape is that of the inputs *)
  n_level : A -> bool;                                             (* L1144, L1241: between 0 and 1 *)
  n_aeq : A -> A -> bool;                                          (* L1156: equality of floats *)
  n_qhat : V -> A -> result V;                                     (* L1168-1185, one level *)
  n_bounds : V -> V -> V -> result (V * V);                        (* L1356-1357, L1368-1369 *)
  n_mname : mdl -> string }.

Arguments n_checks {N D V A}.
Arguments n_params {N D V A}.
Arguments n_inputs {N D V A}.
Arguments n_predict {N D V A}.
Arguments n_strata {N D V A}.
Arguments n_strata_fit {N D V A}.
Arguments n_global_fit {N D V A}.
Arguments n_count_inp {N D V A}.
Arguments n_count_par {N D V A}.
Arguments n_count_dist {N D V A}.
Arguments n_iqr {N D V A}.
Arguments n_range {N D V A}.
Arguments n_fit {N D V A}.
Arguments n_kern {N D V A}.
Arguments n_flat {N D V A}.
Arguments n_tree {N D V A}.
Arguments n_cutoff {N D V A}.
Arguments n_spar {N D V A}.
Arguments n_sinp {N D V A}.
Arguments n_sdist {N D V A}.
Arguments n_norm {N D V A}.
Arguments n_div {N D V A}.
Arguments n_hchecks {N D V A}.
Arguments n_zeros {N D V A}.
Arguments n_add {N D V A}.
Arguments n_add_dist {N D V A}.
Arguments n_bias_strata {N D V A}.
Arguments n_bias_global {N D V A}.
Arguments n_scores {N D V A}.
Arguments n_ccheck {N D V A}.
Arguments n_level {N D V A}.
Arguments n_aeq {N D V A}.
Arguments n_qhat {N D V A}.
Arguments n_bounds {N D V A}.
Arguments n_mname {N D V A}.

(** The attributes — L174-204. *)
Record cobj (N D V A : Type) := mk_cobj {
  o_model : mdl;
  o_name : pyname;
  o_alpha : A;
  o_quantile : A;
  o_scores : option V;
  o_qhats : list (A * V);
  o_train : option (tree D);
  o_kd : option V;
  o_iqr : option V;
  o_range : option V;
  o_npar : option V;
  o_ninp : option V;
  o_ndist : option V;
  o_cont : option (tree bool);
  o_cutoff : option V;
  o_enc : option (sobj N);
  o_sbc : option corrections;
  o_strata : option V;
  o_biases : option V;
  o_cpar : option nat;
  o_cinp : option nat;
  o_cdist : option nat;
  o_finp : option (tree bool);
  o_fpar : option (tree bool);
  o_fdist : option (tree bool) }.
Arguments mk_cobj {N D V A}.
Arguments o_model {N D V A}.
Arguments o_name {N D V A}.
Arguments o_alpha {N D V A}.
Arguments o_quantile {N D V A}.
Arguments o_scores {N D V A}.
Arguments o_qhats {N D V A}.
Arguments o_train {N D V A}.
Arguments o_kd {N D V A}.
Arguments o_iqr {N D V A}.
Arguments o_range {N D V A}.
Arguments o_npar {N D V A}.
Arguments o_ninp {N D V A}.
Arguments o_ndist {N D V A}.
Arguments o_cont {N D V A}.
Arguments o_cutoff {N D V A}.
Arguments o_enc {N D V A}.
Arguments o_sbc {N D V A}.
Arguments o_strata {N D V A}.
Arguments o_biases {N D V A}.
Arguments o_cpar {N D V A}.
Arguments o_cinp {N D V A}.
Arguments o_cdist {N D V A}.
Arguments o_finp {N D V A}.
Arguments o_fpar {N D V A}.
Arguments o_fdist {N D V A}.

Section Set_.
Context {N D V A : Type}.
Notation obj := (cobj N D V A).
Definition set_model (v : mdl) (o : obj) : obj := mk_cobj v (o_name o) (o_alpha o) (o_quantile o) (o_scores o) (o_qhats o) (o_train o) (o_kd o) (o_iqr o) (o_range o) (o_npar o) (o_ninp o) (o_ndist o) (o_cont o) (o_cutoff o) (o_enc o) (o_sbc o) (o_strata o) (o_biases o) (o_cpar o) (o_cinp o) (o_cdist o) (o_finp o) (o_fpar o) (o_fdist o).
Definition set_name (v : pyname) (o : obj) : obj := mk_cobj (o_model o) v (o_alpha o) (o_quantile o) (o_scores o) (o_qhats o) (o_train o) (o_kd o) (o_iqr o) (o_range o) (o_npar o) (o_ninp o) (o_ndist o) (o_cont o) (o_cutoff o) (o_enc o) (o_sbc o) (o_strata o) (o_biases o) (o_cpar o) (o_cinp o) (o_cdist o) (o_finp o) (o_fpar o) (o_fdist o).
Definition set_alpha (v : A) (o : obj) : obj := mk_cobj (o_model o) (o_name o) v (o_quantile o) (o_scores o) (o_qhats o) (o_train o) (o_kd o) (o_iqr o) (o_range o) (o_npar o) (o_ninp o) (o_ndist o) (o_cont o) (o_cutoff o) (o_enc o) (o_sbc o) (o_strata o) (o_biases o) (o_cpar o) (o_cinp o) (o_cdist o) (o_finp o) (o_fpar o) (o_fdist o).
Definition set_quantile (v : A) (o : obj) : obj := mk_cobj (o_model o) (o_name o) (o_alpha o) v (o_scores o) (o_qhats o) (o_train o) (o_kd o) (o_iqr o) (o_range o) (o_npar o) (o_ninp o) (o_ndist o) (o_cont o) (o_cutoff o) (o_enc o) (o_sbc o) (o_strata o) (o_biases o) (o_cpar o) (o_cinp o) (o_cdist o) (o_finp o) (o_fpar o) (o_fdist o).
Definition set_scores (v : option V) (o : obj) : obj := mk_cobj (o_model o) (o_name o) (o_alpha o) (o_quantile o) v (o_qhats o) (o_train o) (o_kd o) (o_iqr o) (o_range o) (o_npar o) (o_ninp o) (o_ndist o) (o_cont o) (o_cutoff o) (o_enc o) (o_sbc o) (o_strata o) (o_biases o) (o_cpar o) (o_cinp o) (o_cdist o) (o_finp o) (o_fpar o) (o_fdist o).
Definition set_qhats (v : list (A * V)) (o : obj) : obj := mk_cobj (o_model o) (o_name o) (o_alpha o) (o_quantile o) (o_scores o) v (o_train o) (o_kd o) (o_iqr o) (o_range o) (o_npar o) (o_ninp o) (o_ndist o) (o_cont o) (o_cutoff o) (o_enc o) (o_sbc o) (o_strata o) (o_biases o) (o_cpar o) (o_cinp o) (o_cdist o) (o_finp o) (o_fpar o) (o_fdist o).
Definition set_train (v : option (tree D)) (o : obj) : obj := mk_cobj (o_model o) (o_name o) (o_alpha o) (o_quantile o) (o_scores o) (o_qhats o) v (o_kd o) (o_iqr o) (o_range o) (o_npar o) (o_ninp o) (o_ndist o) (o_cont o) (o_cutoff o) (o_enc o) (o_sbc o) (o_strata o) (o_biases o) (o_cpar o) (o_cinp o) (o_cdist o) (o_finp o) (o_fpar o) (o_fdist o).
Definition set_kd (v : option V) (o : obj) : obj := mk_cobj (o_model o) (o_name o) (o_alpha o) (o_quantile o) (o_scores o) (o_qhats o) (o_train o) v (o_iqr o) (o_range o) (o_npar o) (o_ninp o) (o_ndist o) (o_cont o) (o_cutoff o) (o_enc o) (o_sbc o) (o_strata o) (o_biases o) (o_cpar o) (o_cinp o) (o_cdist o) (o_finp o) (o_fpar o) (o_fdist o).
Definition set_iqr (v : option V) (o : obj) : obj := mk_cobj (o_model o) (o_name o) (o_alpha o) (o_quantile o) (o_scores o) (o_qhats o) (o_train o) (o_kd o) v (o_range o) (o_npar o) (o_ninp o) (o_ndist o) (o_cont o) (o_cutoff o) (o_enc o) (o_sbc o) (o_strata o) (o_biases o) (o_cpar o) (o_cinp o) (o_cdist o) (o_finp o) (o_fpar o) (o_fdist o).
Definition set_range (v : option V) (o : obj) : obj := mk_cobj (o_model o) (o_name o) (o_alpha o) (o_quantile o) (o_scores o) (o_qhats o) (o_train o) (o_kd o) (o_iqr o) v (o_npar o) (o_ninp o) (o_ndist o) (o_cont o) (o_cutoff o) (o_enc o) (o_sbc o) (o_strata o) (o_biases o) (o_cpar o) (o_cinp o) (o_cdist o) (o_finp o) (o_fpar o) (o_fdist o).
Definition set_npar (v : option V) (o : obj) : obj := mk_cobj (o_model o) (o_name o) (o_alpha o) (o_quantile o) (o_scores o) (o_qhats o) (o_train o) (o_kd o) (o_iqr o) (o_range o) v (o_ninp o) (o_ndist o) (o_cont o) (o_cutoff o) (o_enc o) (o_sbc o) (o_strata o) (o_biases o) (o_cpar o) (o_cinp o) (o_cdist o) (o_finp o) (o_fpar o) (o_fdist o).
Definition set_ninp (v : option V) (o : obj) : obj := mk_cobj (o_model o) (o_name o) (o_alpha o) (o_quantile o) (o_scores o) (o_qhats o) (o_train o) (o_kd o) (o_iqr o) (o_range o) (o_npar o) v (o_ndist o) (o_cont o) (o_cutoff o) (o_enc o) (o_sbc o) (o_strata o) (o_biases o) (o_cpar o) (o_cinp o) (o_cdist o) (o_finp o) (o_fpar o) (o_fdist o).
Definition set_ndist (v : option V) (o : obj) : obj := mk_cobj (o_model o) (o_name o) (o_alpha o) (o_quantile o) (o_scores o) (o_qhats o) (o_train o) (o_kd o) (o_iqr o) (o_range o) (o_npar o) (o_ninp o) v (o_cont o) (o_cutoff o) (o_enc o) (o_sbc o) (o_strata o) (o_biases o) (o_cpar o) (o_cinp o) (o_cdist o) (o_finp o) (o_fpar o) (o_fdist o).
Definition set_cont (v : option (tree bool)) (o : obj) : obj := mk_cobj (o_model o) (o_name o) (o_alpha o) (o_quantile o) (o_scores o) (o_qhats o) (o_train o) (o_kd o) (o_iqr o) (o_range o) (o_npar o) (o_ninp o) (o_ndist o) v (o_cutoff o) (o_enc o) (o_sbc o) (o_strata o) (o_biases o) (o_cpar o) (o_cinp o) (o_cdist o) (o_finp o) (o_fpar o) (o_fdist o).
Definition set_cutoff (v : option V) (o : obj) : obj := mk_cobj (o_model o) (o_name o) (o_alpha o) (o_quantile o) (o_scores o) (o_qhats o) (o_train o) (o_kd o) (o_iqr o) (o_range o) (o_npar o) (o_ninp o) (o_ndist o) (o_cont o) v (o_enc o) (o_sbc o) (o_strata o) (o_biases o) (o_cpar o) (o_cinp o) (o_cdist o) (o_finp o) (o_fpar o) (o_fdist o).
Definition set_enc (v : option (sobj N)) (o : obj) : obj := mk_cobj (o_model o) (o_name o) (o_alpha o) (o_quantile o) (o_scores o) (o_qhats o) (o_train o) (o_kd o) (o_iqr o) (o_range o) (o_npar o) (o_ninp o) (o_ndist o) (o_cont o) (o_cutoff o) v (o_sbc o) (o_strata o) (o_biases o) (o_cpar o) (o_cinp o) (o_cdist o) (o_finp o) (o_fpar o) (o_fdist o).
Definition set_sbc (v : option corrections) (o : obj) : obj := mk_cobj (o_model o) (o_name o) (o_alpha o) (o_quantile o) (o_scores o) (o_qhats o) (o_train o) (o_kd o) (o_iqr o) (o_range o) (o_npar o) (o_ninp o) (o_ndist o) (o_cont o) (o_cutoff o) (o_enc o) v (o_strata o) (o_biases o) (o_cpar o) (o_cinp o) (o_cdist o) (o_finp o) (o_fpar o) (o_fdist o).
Definition set_strata (v : option V) (o : obj) : obj := mk_cobj (o_model o) (o_name o) (o_alpha o) (o_quantile o) (o_scores o) (o_qhats o) (o_train o) (o_kd o) (o_iqr o) (o_range o) (o_npar o) (o_ninp o) (o_ndist o) (o_cont o) (o_cutoff o) (o_enc o) (o_sbc o) v (o_biases o) (o_cpar o) (o_cinp o) (o_cdist o) (o_finp o) (o_fpar o) (o_fdist o).
Definition set_biases (v : option V) (o : obj) : obj := mk_cobj (o_model o) (o_name o) (o_alpha o) (o_quantile o) (o_scores o) (o_qhats o) (o_train o) (o_kd o) (o_iqr o) (o_range o) (o_npar o) (o_ninp o) (o_ndist o) (o_cont o) (o_cutoff o) (o_enc o) (o_sbc o) (o_strata o) v (o_cpar o) (o_cinp o) (o_cdist o) (o_finp o) (o_fpar o) (o_fdist o).
Definition set_cpar (v : option nat) (o : obj) : obj := mk_cobj (o_model o) (o_name o) (o_alpha o) (o_quantile o) (o_scores o) (o_qhats o) (o_train o) (o_kd o) (o_iqr o) (o_range o) (o_npar o) (o_ninp o) (o_ndist o) (o_cont o) (o_cutoff o) (o_enc o) (o_sbc o) (o_strata o) (o_biases o) v (o_cinp o) (o_cdist o) (o_finp o) (o_fpar o) (o_fdist o).
Definition set_cinp (v : option nat) (o : obj) : obj := mk_cobj (o_model o) (o_name o) (o_alpha o) (o_quantile o) (o_scores o) (o_qhats o) (o_train o) (o_kd o) (o_iqr o) (o_range o) (o_npar o) (o_ninp o) (o_ndist o) (o_cont o) (o_cutoff o) (o_enc o) (o_sbc o) (o_strata o) (o_biases o) (o_cpar o) v (o_cdist o) (o_finp o) (o_fpar o) (o_fdist o).
Definition set_cdist (v : option nat) (o : obj) : obj := mk_cobj (o_model o) (o_name o) (o_alpha o) (o_quantile o) (o_scores o) (o_qhats o) (o_train o) (o_kd o) (o_iqr o) (o_range o) (o_npar o) (o_ninp o) (o_ndist o) (o_cont o) (o_cutoff o) (o_enc o) (o_sbc o) (o_strata o) (o_biases o) (o_cpar o) (o_cinp o) v (o_finp o) (o_fpar o) (o_fdist o).
Definition set_finp (v : option (tree bool)) (o : obj) : obj := mk_cobj (o_model o) (o_name o) (o_alpha o) (o_quantile o) (o_scores o) (o_qhats o) (o_train o) (o_kd o) (o_iqr o) (o_range o) (o_npar o) (o_ninp o) (o_ndist o) (o_cont o) (o_cutoff o) (o_enc o) (o_sbc o) (o_strata o) (o_biases o) (o_cpar o) (o_cinp o) (o_cdist o) v (o_fpar o) (o_fdist o).
Definition set_fpar (v : option (tree bool)) (o : obj) : obj := mk_cobj (o_model o) (o_name o) (o_alpha o) (o_quantile o) (o_scores o) (o_qhats o) (o_train o) (o_kd o) (o_iqr o) (o_range o) (o_npar o) (o_ninp o) (o_ndist o) (o_cont o) (o_cutoff o) (o_enc o) (o_sbc o) (o_strata o) (o_biases o) (o_cpar o) (o_cinp o) (o_cdist o) (o_finp o) v (o_fdist o).
Definition set_fdist (v : option (tree bool)) (o : obj) : obj := mk_cobj (o_model o) (o_name o) (o_alpha o) (o_quantile o) (o_scores o) (o_qhats o) (o_train o) (o_kd o) (o_iqr o) (o_range o) (o_npar o) (o_ninp o) (o_ndist o) (o_cont o) (o_cutoff o) (o_enc o) (o_sbc o) (o_strata o) (o_biases o) (o_cpar o) (o_cinp o) (o_cdist o) (o_finp o) (o_fpar o) v.
End Set_.

(** Exceptions with a state: an assignment survives an exception raised later. *)
Definition prog (O X : Type) := O -> O * result X.
Definition ret {O X} (x : X) : prog O X := fun o => (o, Ok x).
Definition lift {O X} (r : result X) : prog O X := fun o => (o, r).
Definition bind {O X Y} (p : prog O X) (f : X -> prog O Y) : prog O Y :=
  fun o => let '(o', r) := p o in match r with Ok x => f x o' | Err e => (o', Err e) end.
Definition look {O X} (f : O -> result X) : prog O X := fun o => (o, f o).
Definition store {O} (f : O -> O) : prog O unit := fun o => (f o, Ok tt).
Notation "x <- p ;; q" := (bind p (fun x => q)) (at level 60, p at next level, right associativity).
Notation "p ;;; q" := (bind p (fun _ => q)) (at level 60, right associativity).

Section Conf.
Context {N D V A : Type} (n : numerics N D V A).
Notation obj := (cobj N D V A).

(** [__init__] — L174-204. *)
Definition conf_new (m : mdl) (alpha quantile : A) (name : pyname) : obj :=
  mk_cobj m name alpha quantile None [] None None None None None None None None None None None None None None None None None None None.

(** [tree_util.any] of an attribute that may be None. *)
Definition anyf (t : option (tree bool)) : bool := match t with Some t => existsb (fun b : bool => b) (leaves t) | None => false end.
(** Python's truth value of a tree of bools or None — L831, L916. *)
Definition truthy_flags (t : option (tree bool)) : bool :=
  match t with
  | None | Some NoneT | Some (Lst []) | Some (Tup []) | Some (Dict []) => false
  | Some (Leaf b) => b
  | Some _ => true
  end.
Definition the {X} (e : err) (x : option X) : result X := match x with Some v => Ok v | None => Err e end.

(** [parameter_sensitivity] — L831-898. *)
Definition parameter_sensitivity (o : obj) (X : tree D) (normalize : bool) : result (option V) :=
  match o_fpar o with
  | Some f =>
      if negb (truthy_flags (Some f)) then Ok None else
      if normalize && match o_npar o with None => true | _ => false end then Err ValueError else
      let* s := n_spar n (o_model o) f (o_cpar o) X in
      if normalize then let* w := the ValueError (o_npar o) in let* s := n_div n s w in Ok (Some s) else Ok (Some s)
  | None => Ok None
  end.
(** [input_sensitivity] — L916-996. *)
Definition input_sensitivity (o : obj) (X : tree D) (unc : option (tree D)) (normalize : bool) : result (option V) :=
  match o_finp o with
  | Some f =>
      if negb (truthy_flags (Some f)) then Ok None else
      if normalize && match o_ninp o with None => true | _ => false end then Err ValueError else
      let* s := n_sinp n (o_model o) (o_iqr o) (o_cinp o) (o_cont o) f X unc in
      if normalize then let* w := the ValueError (o_ninp o) in let* s := n_div n s w in Ok (Some s) else Ok (Some s)
  | None => Ok None
  end.
(** [_prepare_data_for_kdtree] — L1091-1123. *)
Definition prepare (o : obj) (X : tree D) : result V :=
  let* e := the ValueError (o_enc o) in
  let* r := the ValueError (o_range o) in
  let* E := apply (n_kern n) false e X in
  match o_fdist o with Some f => n_flat n E r f | None => Err ValueError end.
(** [distance_sensitivity] — L1008-1089. *)
Definition distance_sensitivity (o : obj) (X : tree D) (normalize : bool) : result (option V) :=
  if negb (anyf (o_fdist o)) then Ok None else
  match o_train o with
  | None => Err ValueError
  | Some _ =>
      let* k := the ValueError (o_kd o) in
      let* _ := the ValueError (o_range o) in
      let* _ := the ValueError (o_enc o) in
      let* c := the ValueError (o_cutoff o) in
      if normalize && match o_ndist o with None => true | _ => false end then Err ValueError else
      let* P := prepare o X in
      let* s := n_sdist n k c (o_cdist o) P in
      if normalize then let* w := the ValueError (o_ndist o) in let* s := n_div n s w in Ok (Some s) else Ok (Some s)
  end.
(** [uncertainty_heuristic] — L1435-1523. (A term None cannot be added: the
    guards exclude it.) *)
Definition uncertainty (o : obj) (X : tree D) (unc : option (tree D)) : result V :=
  let* _ := n_hchecks n (o_model o) X unc in
  let* u := n_zeros n (o_model o) X in
  let* u := if anyf (o_fpar o) then let* s := parameter_sensitivity o X true in let* s := the TypeError s in n_add n u s else Ok u in
  match o_train o with
  | None => Ok u
  | Some _ =>
      let* u := if anyf (o_finp o) then let* s := input_sensitivity o X unc true in let* s := the TypeError s in n_add n u s else Ok u in
      if anyf (o_fdist o) then let* s := distance_sensitivity o X true in let* s := the TypeError s in n_add_dist n u s else Ok u
  end.

(** [get_qhat] — L1132-1197 with a list of levels. *)
Fixpoint aget (d : list (A * V)) (a : A) : option V :=
  match d with [] => None | (b, v) :: d' => if n_aeq n a b then Some v else aget d' a end.
Fixpoint new_qhats (s : V) (old : list (A * V)) (l : list A) : result (list V * list (A * V)) :=
  match l with
  | [] => Ok ([], [])
  | a :: l' =>
      match aget old a with
      | Some q => let* r := new_qhats s old l' in Ok (q :: fst r, snd r)
      | None => let* q := n_qhat n s a in let* r := new_qhats s old l' in Ok (q :: fst r, (a, q) :: snd r)
      end
  end.
Definition levels (o : obj) (l : option (list A)) : list A := match l with Some l => l | None => [o_alpha o] end.
Definition get_qhat (l : option (list A)) : prog obj (list V) :=
  r <- look (fun o =>
         let l := levels o l in
         if forallb (n_level n) l then let* s := the ValueError (o_scores o) in new_qhats s (o_qhats o) l else Err ValueError) ;;
  store (fun o => set_qhats (snd r ++ o_qhats o) o) ;;;
  ret (fst r).

(** The correction of predictions — L788-806, L1272-1334. *)
Definition correct (o : obj) (X : tree D) (P : V) : result V :=
  match o_sbc o with
  | None => Ok P
  | Some c =>
      match mode_of c with
      | MNone => Ok P
      | MGlobal => let* b := the ValueError (o_biases o) in n_bias_global n P b
      | MStrata t => let* b := the ValueError (o_biases o) in let* u := the ValueError (o_strata o) in n_bias_strata n P u b t X
      end
  end.
(** [__call__] — L1229-1374: the corrected predictions and the uncertainties
    (L1229-1348), then the intervals. *)
Definition parts (o : obj) (X : tree D) (unc : option (tree D)) (l : option (list A)) : result (V * V) :=
  if negb (forallb (n_level n) (levels o l)) then Err ValueError else
  if negb (n_ccheck n (o_model o) X) then Err ValueError else
  let* _ := the ValueError (o_scores o) in
  let* P := n_predict n (o_model o) X in
  let* P := correct o X P in
  let* u := uncertainty o X unc in
  Ok (P, u).
Definition call (X : tree D) (unc : option (tree D)) (l : option (list A)) : prog obj (V * list (V * V)) :=
  r <- look (fun o => parts o X unc l) ;;
  q <- get_qhat l ;;
  b <- lift (rmapM (fun q => n_bounds n (fst r) q (snd r)) q) ;;
  ret (fst r, b).

(** [name] — L206-211. *)
Definition name (o : obj) : name_answer :=
  let default := append "ConformalizedModel(" (append (n_mname n (o_model o)) ")") in
  match o_name o with
  | PNone | PStr EmptyString | PArr None | PArr (Some EmptyString) => IsStr default
  | PStr s => IsStr s
  | PArr (Some s) => IsArray s
  end.

(* ------------------------------------------------------------------ *)
(** * Calibration *)

(** L421-471: the flags for the parameters or the inputs. *)
Definition fill (f : flags) (s : tree unit) : result (tree bool) :=
  match f with
  | FAll b => jmapM (fun _ => Ok b) s
  | FTree t => if same_struct t s then Ok t else Err ValueError
  end.
(** L254-471. *)
Definition stage_arguments (a : cargs D V) : prog obj unit :=
  look (fun o => n_checks n (o_model o) a) ;;;
  cont <- lift (match a_cont a with
                | Some t => if same_struct t (a_X a) then Ok t else Err ValueError
                | None => jmapM (fun _ => Ok true) (a_X a)
                end) ;;
  store (set_cont (Some cont)) ;;;
  sbc <- lift (check_corrections (a_sbc a) (match a_sbc a with Some (CTree t) => same_struct t (a_X a) | _ => true end) cont) ;;
  store (set_sbc (Some sbc)) ;;;
  f <- look (fun o => fill (a_par a) (n_params n (o_model o))) ;;
  store (set_fpar (Some f)) ;;;
  f <- look (fun o => fill (a_inp a) (n_inputs n (o_model o))) ;;
  store (set_finp (Some f)) ;;;
  f <- look (fun o => fill (a_dist a) (n_inputs n (o_model o))) ;;
  store (set_fdist (Some f)).
(** The mode of the corrections. *)
Definition mode_o (o : obj) : mode := match o_sbc o with Some c => mode_of c | None => MNone end.
(** L475-573: the biases; returns the predictions if they were needed. *)
Definition stage_bias (a : cargs D V) : prog obj (option V) :=
  m <- look (fun o => Ok (mode_o o)) ;;
  match m with
  | MNone => ret None
  | MGlobal =>
      P <- look (fun o => n_predict n (o_model o) (a_X a)) ;;
      b <- lift (n_global_fit n (a_X a) (a_Y a) P) ;;
      store (set_biases (Some b)) ;;;
      ret (Some P)
  | MStrata t =>
      u <- lift (n_strata n t (a_X a)) ;;
      store (set_strata (Some u)) ;;;
      P <- look (fun o => n_predict n (o_model o) (a_X a)) ;;
      b <- lift (n_strata_fit n u t (a_X a) (a_Y a) P) ;;
      store (set_biases (Some b)) ;;;
      ret (Some P)
  end.
(** Attributes that [calibrate] has set before it reads them. *)
Definition conto (o : obj) : tree bool := match o_cont o with Some t => t | None => NoneT end.
Definition finpo (o : obj) : tree bool := match o_finp o with Some t => t | None => NoneT end.
Definition fparo (o : obj) : tree bool := match o_fpar o with Some t => t | None => NoneT end.
Definition fdisto (o : obj) : tree bool := match o_fdist o with Some t => t | None => NoneT end.
(** L575-622. *)
Definition stage_counts (a : cargs D V) : prog obj unit :=
  store (set_train (a_train a)) ;;;
  c <- look (fun o => n_count_inp n (a_X a) (conto o) (finpo o)) ;;
  store (set_cinp (Some c)) ;;;
  c <- look (fun o => n_count_par n (o_model o) (fparo o)) ;;
  store (set_cpar (Some c)) ;;;
  c <- look (fun o => n_count_dist n (a_X a) (conto o) (fdisto o)) ;;
  store (set_cdist (Some c)).
(** L667-675: None where no encoding is needed. *)
Fixpoint without_none {X} (t : tree (option X)) : tree X :=
  match t with
  | Leaf (Some x) => Leaf x
  | Leaf None | NoneT => NoneT
  | Dict d => Dict (map (fun kv => (fst kv, without_none (snd kv))) d)
  | Lst l => Lst (map without_none l)
  | Tup l => Tup (map without_none l)
  end.
Definition encoder (cont dist : tree bool) : result (sobj N) :=
  let* t := jzipM (fun c d : bool => Ok (if c || negb d then None else Some (OneHot NoneT NoneT))) cont dist in
  Ok (Mixed (without_none t)).
(** L624-702. *)
Definition stage_distance (a : cargs D V) : prog obj unit :=
  match a_train a with
  | None => ret tt
  | Some T =>
      i <- look (fun o => n_iqr n T (conto o) (finpo o)) ;;
      store (set_iqr (Some i)) ;;;
      r <- look (fun o => n_range n T (conto o)) ;;
      store (set_range (Some r)) ;;;
      e <- look (fun o => encoder (conto o) (fdisto o)) ;;
      store (set_enc (Some e)) ;;;
      e <- lift (n_fit n e T) ;;
      store (set_enc (Some e)) ;;;
      P <- look (fun o => prepare o T) ;;
      k <- lift (n_tree n P) ;;
      store (set_kd (Some k)) ;;;
      c <- look (fun o => n_cutoff n k (o_quantile o)) ;;
      store (set_cutoff (Some c))
  end.
(** L704-757. *)
Definition stage_norms (a : cargs D V) : prog obj unit :=
  anyp <- look (fun o => Ok (anyf (o_fpar o))) ;;
  (if anyp then
     s <- look (fun o => parameter_sensitivity o (a_X a) false) ;;
     w <- lift (let* s := the TypeError s in n_norm n (a_Yunc a) s) ;;
     store (set_npar (Some w))
   else ret tt) ;;;
  match a_train a with
  | None => ret tt
  | Some _ =>
      anyi <- look (fun o => Ok (anyf (o_finp o))) ;;
      (if anyi then
         s <- look (fun o => input_sensitivity o (a_X a) (a_Xunc a) false) ;;
         w <- lift (let* s := the TypeError s in n_norm n (a_Yunc a) s) ;;
         store (set_ninp (Some w))
       else ret tt) ;;;
      s <- look (fun o => distance_sensitivity o (a_X a) false) ;;
      w <- lift (match s with Some s => let* w := n_norm n None s in Ok (Some w) | None => Ok None end) ;;
      store (set_ndist w)
  end.
(** L760-814. *)
Definition stage_scores (a : cargs D V) (P : option V) : prog obj unit :=
  u <- look (fun o => uncertainty o (a_X a) (a_Xunc a)) ;;
  P <- look (fun o => match P with Some P => Ok P | None => n_predict n (o_model o) (a_X a) end) ;;
  P <- look (fun o => correct o (a_X a) P) ;;
  s <- lift (n_scores n (a_X a) (a_Y a) P u) ;;
  store (set_scores (Some s)).
(** [calibrate] — L217-814. *)
Definition calibrate (a : cargs D V) : prog obj unit :=
  stage_arguments a ;;;
  P <- stage_bias a ;;
  stage_counts a ;;;
  stage_distance a ;;;
  stage_norms a ;;;
  stage_scores a P.

(* ------------------------------------------------------------------ *)
(** * Saving and loading *)
Context (tower : bool) (ready : fields -> tree mdl -> bool).

(** L1525-1590: everything but the k-d tree, with the serialised model and
    encoder. *)
Record cdata := mk_cdata { d_model : sdat; d_enc : option (list (string * py N)); d_rest : obj }.

Definition conf_ser (o : obj) : result cdata :=
  let* d := save tower ready (o_model o) in
  Ok (mk_cdata d (match o_enc o with Some e => Some (ser e) | None => None end) (set_enc None (set_kd None o))).
(** L1592-1700. The attributes other than those below are copied one by one
    (L1655-1688); the model is a new object of its class that is given the
    serialised data (L1640-1643). *)
Definition conf_deser (d : cdata) : result obj :=
  let* m := load (d_model d) in
  let* e := match d_enc d with Some x => let* e := deser CMixed x in Ok (Some e) | None => Ok None end in
  let o := set_model m (set_enc e (d_rest d)) in
  match o_train o with                                             (* L1690-1695 *)
  | None => Ok o
  | Some T => let* P := prepare o T in let* k := n_tree n P in Ok (set_kd (Some k) o)
  end.
Definition conf_copy (o : obj) : result obj := let* d := conf_ser o in conf_deser d.
(** [save] and [from_file] — L1702-1770. *)
Definition filed (s : pyname) : pyname := match s with PNone => PArr None | PStr s => PArr (Some s) | PArr s => PArr s end.
Definition conf_file (o : obj) : result obj := let* d := conf_ser o in conf_deser (mk_cdata (d_model d) (d_enc d) (set_name (filed (o_name (d_rest d))) (d_rest d))).
End Conf.
