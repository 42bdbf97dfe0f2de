(** What a calibrated conformal model answers, said from the arguments of the
    calibration alone (there is no object here): the features that count, the
    normalised terms of the uncertainty, the corrected predictions, the scores
    and the intervals. *)
From Coq Require Import Permutation.
From Verif Require Import Base TreeUtil NonSeqSpec SerialSpec TrainArgs Serial Scaler Strata ScalerFile ConfState ConfStateSpec.
Local Open Scope list_scope.

Section Spec.
Context {N D V A : Type} (n : numerics N D V A) (m : mdl) (quantile : A) (a : cargs D V).

(** One bool counts for every leaf of the structure; a tree is taken as it is. *)
Definition selects (f : flags) (s : tree unit) (t : tree bool) : Prop :=
  match f with FAll b => trel (fun _ c => c = b) s t | FTree t0 => t = t0 end.
Definition some_on (t : tree bool) : Prop := has_leaf t true.

(** The features that are continuous, those that are selected for the three
    terms, and the numbers of features counted. *)
Record facts := mk_facts { f_cont : tree bool; f_par : tree bool; f_inp : tree bool; f_dist : tree bool; f_npar : nat; f_ninp : nat; f_ndist : nat }.
Definition facts_of (F : facts) : Prop :=
  match a_cont a with Some t => f_cont F = t | None => trel (fun _ c => c = true) (a_X a) (f_cont F) end /\
  selects (a_par a) (n_params n m) (f_par F) /\ selects (a_inp a) (n_inputs n m) (f_inp F) /\ selects (a_dist a) (n_inputs n m) (f_dist F) /\
  n_count_par n m (f_par F) = Ok (f_npar F) /\ n_count_inp n (a_X a) (f_cont F) (f_inp F) = Ok (f_ninp F) /\ n_count_dist n (a_X a) (f_cont F) (f_dist F) = Ok (f_ndist F).

(** What is drawn from the training data. *)
Record ground := mk_ground { g_iqr : V; g_range : V; g_enc : sobj N; g_points : V; g_cut : V }.
Definition place (F : facts) (G : ground) (X : tree D) : result V :=
  let* E := apply (n_kern n) false (g_enc G) X in n_flat n E (g_range G) (f_dist F).
Definition ground_of (F : facts) (T : tree D) (G : ground) : Prop :=
  n_iqr n T (f_cont F) (f_inp F) = Ok (g_iqr G) /\ n_range n T (f_cont F) = Ok (g_range G) /\
  (exists e, encoder (f_cont F) (f_dist F) = Ok e /\ n_fit n e T = Ok (g_enc G)) /\
  (exists P, place F G T = Ok P /\ n_tree n P = Ok (g_points G)) /\ n_cutoff n (g_points G) quantile = Ok (g_cut G).

(** A term: the sensitivity at [X] over the size it has on the calibration data. *)
Definition term (raw : tree D -> option (tree D) -> result V) (weights : option V) (X : tree D) (unc : option (tree D)) (s : V) : Prop :=
  exists c size r, raw (a_X a) (a_Xunc a) = Ok c /\ n_norm n weights c = Ok size /\ raw X unc = Ok r /\ n_div n r size = Ok s.
Definition plus (on : Prop) (add : V -> V -> result V) (t : V -> Prop) (u u' : V) : Prop :=
  (on /\ exists s, t s /\ add u s = Ok u') \/ (~ on /\ u' = u).

(** The uncertainty of [X]: the terms that are selected, those about the inputs
    only with training data. *)
Definition heuristic (F : facts) (X : tree D) (unc : option (tree D)) (u : V) : Prop :=
  n_hchecks n m X unc = Ok tt /\ exists u0 u1, n_zeros n m X = Ok u0 /\
  plus (some_on (f_par F)) (n_add n) (term (fun X _ => n_spar n m (f_par F) (Some (f_npar F)) X) (a_Yunc a) X unc) u0 u1 /\
  match a_train a with
  | None => u = u1
  | Some T => exists G u2, ground_of F T G /\
      plus (some_on (f_inp F)) (n_add n) (term (fun X unc => n_sinp n m (Some (g_iqr G)) (Some (f_ninp F)) (Some (f_cont F)) (f_inp F) X unc) (a_Yunc a) X unc) u1 u2 /\
      plus (some_on (f_dist F)) (n_add_dist n) (term (fun X _ => let* P := place F G X in n_sdist n (g_points G) (g_cut G) (Some (f_ndist F)) P) None X unc) u2 u
  end.

(** The corrected prediction: as it is, with one bias for all samples, or with
    one per stratum. *)
Definition corrected (F : facts) (X : tree D) (P : V) : Prop :=
  exists c P0, check_corrections (a_sbc a) (match a_sbc a with Some (CTree t) => TrainArgs.same_struct t (a_X a) | _ => true end) (f_cont F) = Ok c /\ n_predict n m X = Ok P0 /\
  match mode_of c with
  | MNone => P = P0
  | MGlobal => exists Pc b, n_predict n m (a_X a) = Ok Pc /\ n_global_fit n (a_X a) (a_Y a) Pc = Ok b /\ n_bias_global n P0 b = Ok P
  | MStrata t => exists Pc u b, n_predict n m (a_X a) = Ok Pc /\ n_strata n t (a_X a) = Ok u /\ n_strata_fit n u t (a_X a) (a_Y a) Pc = Ok b /\ n_bias_strata n P0 u b t X = Ok P
  end.
(** The scores of the calibration data. *)
Definition score (F : facts) (s : V) : Prop :=
  exists P u, corrected F (a_X a) P /\ heuristic F (a_X a) (a_Xunc a) u /\ n_scores n (a_X a) (a_Y a) P u = Ok s.
(** The answer to a call: the corrected prediction and, for every level asked
    for, the interval of the quantile of the scores times the uncertainty. *)
Definition answered (F : facts) (X : tree D) (unc : option (tree D)) (ls : list A) (P : V) (bs : list (V * V)) : Prop :=
  n_ccheck n m X = true /\ corrected F X P /\ exists s u, score F s /\ heuristic F X unc u /\
  Forall2 (fun l b => n_level n l = true /\ exists q, n_qhat n s l = Ok q /\ n_bounds n P q u = Ok b) ls bs.
End Spec.

(** The encoding of the categorical features: one-hot exactly where a feature is
    categorical and selected for the distances (pairs of continuous, selected),
    None everywhere else, in the same containers. *)
Section Encoding.
Context {N : Type}.
Inductive encodes : tree (bool * bool) -> tree (sobj N) -> Prop :=
| en_on : encodes (Leaf (false, true)) (Leaf (OneHot NoneT NoneT))
| en_continuous d : encodes (Leaf (true, d)) NoneT
| en_unselected c : encodes (Leaf (c, false)) NoneT
| en_none : encodes NoneT NoneT
| en_lst l m : Forall2 encodes l m -> encodes (Lst l) (Lst m)
| en_tup l m : Forall2 encodes l m -> encodes (Tup l) (Tup m)
| en_dict d e e' : Permutation e' e -> Forall2 (fun a b => fst a = fst b /\ encodes (snd a) (snd b)) d e' -> encodes (Dict d) (Dict e).
End Encoding.
