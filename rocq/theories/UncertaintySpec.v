(** What the uncertainty heuristic should be. *)
From Coq Require Import Reals.
From Verif Require Import Base TreeUtil TreeSpec NdArray Serial SerialSpec ReshapeSpec LayersSpec Conformal Uncertainty.
Local Open Scope R_scope.
Local Open Scope list_scope.

(** An entry that is not finite counts as 0. *)
Definition val (x : option R) : R := match x with Some v => v | None => 0 end.
Definition total {X} (f : X -> R) (l : list X) : R := fold_right (fun x s => f x + s) 0 l.
(** All index tuples of an array of shape [s]. *)
Definition indices (s : list nat) : list (list nat) := map (unravel s) (seq 0 (prod s)).

(** The squared first-order changes of output number [o] of sample [i], summed
    over the numbers of an input leaf: gradient [g], [w k] the size of the
    change of number [k]. *)
Definition change_leaf (g : oarr) (s : list nat) (w : list nat -> R) (i : nat) (o : list nat) : R :=
  total (fun k => (val (ReshapeSpec.entry None g (i :: o ++ k)) * w k)²) (indices s).
(** Leaves that are not selected do not count. *)
Definition param_change (r : tree (oarr * oarr * bool)) (i : nat) (o : list nat) : R :=
  total (fun q : oarr * oarr * bool => let '(g, p, use) := q in if use then change_leaf g (shp p) (fun k => val (ReshapeSpec.entry None p k)) i o else 0) (leaves r).
Definition param_number (r : tree (oarr * oarr * bool)) : R :=
  total (fun q : oarr * oarr * bool => let '(g, p, use) := q in if use then INR (prod (shp p)) else 0) (leaves r).
(** Inputs: the interquartile range of the training data. *)
Definition iqr (x : rarr) (k : list nat) : R :=
  let c := map (fun i => ReshapeSpec.entry 0 x (i :: k)) (seq 0 (hd 0%nat (shp x))) in quantile c (3/4) - quantile c (1/4).
Definition input_change (r : tree (oarr * rarr * bool)) (i : nat) (o : list nat) : R :=
  total (fun q : oarr * rarr * bool => let '(g, x, use) := q in if use then change_leaf g (tl (shp x)) (iqr x) i o else 0) (leaves r).
Definition input_number (r : tree (oarr * rarr * bool)) : R :=
  total (fun q : oarr * rarr * bool => let '(g, x, use) := q in if use then INR (prod (tl (shp x))) else 0) (leaves r).

(** The leaves of three trees side by side. *)
Definition beside {A B C} (a : tree A) (b : tree B) (c : tree C) (r : tree (A * B * C)) : Prop :=
  wf_tree r /\ trel (fun p x => fst (fst p) = x) r a /\ trel (fun p x => snd (fst p) = x) r b /\ trel (fun p x => snd p = x) r c.
(** A positive number or infinity. *)
Definition positive (m : oarr) : Prop := forall idx w, ReshapeSpec.entry None m idx = Some w -> 0 < w.
Definition divided (v : R) (m : option R) : R := match m with Some w => v / w | None => 0 end.

(** The contributions to output number [o] of sample [i] of the leaf at [ks]. *)
Definition param_part (s : sources) (ks : list string) (i : nat) (o : list nat) (v : R) : Prop :=
  match s_par s with
  | None => v = 0
  | Some (p, N) => exists d m r, leaf_at (p_df p) ks d /\ leaf_at N ks m /\ beside d (p_params p) (p_flags p) r /\ 0 < param_number r /\
      v = divided (param_change r i o / param_number r) (ReshapeSpec.entry None m o)
  end.
(** Inputs that are continuous and selected. *)
Definition used (cont flags use : tree bool) : Prop :=
  wf_tree use /\ trel (fun _ _ => True) cont use /\ forall ks c f u, leaf_at cont ks c -> leaf_at flags ks f -> leaf_at use ks u -> u = c && f.
Definition input_part (s : sources) (ks : list string) (i : nat) (o : list nat) (v : R) : Prop :=
  match s_inp s with
  | None => v = 0
  | Some (p, N) => exists use d m r, used (i_cont p) (i_flags p) use /\ leaf_at (i_df p) ks d /\ leaf_at N ks m /\ beside d (i_train p) use r /\ 0 < input_number r /\
      v = divided (input_change r i o / input_number r) (ReshapeSpec.entry None m o)
  end.
Definition dist_part (s : sources) (i : nat) : R := match s_dist s with None => 0 | Some d => nth i d 0 end.

(** Well-formed arguments: gradients of the right shapes, at least one number
    selected, normalisations like one sample. *)
Definition norms (shapes : tree (list nat)) (N : tree oarr) : Prop := wf_tree N /\ trel (fun o m => shp m = o /\ positive m) shapes N.
Definition par_ok (n : nat) (shapes : tree (list nat)) (s : sources) : Prop :=
  match s_par s with
  | None => True
  | Some (p, N) => wf_tree (p_params p) /\ wf_tree (p_flags p) /\ norms shapes N /\ trel (fun _ _ => True) (p_params p) (p_flags p) /\
      (exists ks x, leaf_at (p_flags p) ks true /\ leaf_at (p_params p) ks x /\ prod (shp x) <> 0%nat) /\
      trel (fun o d => trel (fun x a => shp a = n :: o ++ shp x) (p_params p) d) shapes (p_df p)
  end.
Definition inp_ok (n : nat) (shapes : tree (list nat)) (s : sources) : Prop :=
  match s_inp s with
  | None => True
  | Some (p, N) => wf_tree (i_train p) /\ wf_tree (i_cont p) /\ wf_tree (i_flags p) /\ norms shapes N /\
      trel (fun _ _ => True) (i_train p) (i_cont p) /\ trel (fun _ _ => True) (i_train p) (i_flags p) /\
      (exists ks x, leaf_at (i_cont p) ks true /\ leaf_at (i_flags p) ks true /\ leaf_at (i_train p) ks x /\ prod (tl (shp x)) <> 0%nat) /\
      trel (fun o d => trel (fun x a => shp a = n :: o ++ tl (shp x)) (i_train p) d) shapes (i_df p) /\ i_unc p = None
  end.
Definition dist_ok (n : nat) (o0 : list nat) (s : sources) : Prop :=
  match s_dist s with None => True | Some d => length d = n /\ (forall x, In x d -> 0 <= x) /\ length o0 = 1%nat end.
Definition wf_sources (s : sources) : Prop :=
  (forall p N, s_par s = Some (p, N) -> wf_tree (p_df p)) /\ (forall p N, s_inp s = Some (p, N) -> wf_tree (i_df p)).
