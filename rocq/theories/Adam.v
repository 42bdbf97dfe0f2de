(** The arithmetic of the optimizers (parametricmatrixmodels/training.py L113-299).

    Simplifications:
    - real arithmetic; the casts to 32 bits (L118-122, L172-173, L264-265) are
      not modelled;
    - an array is the list of its entries: all operations act entry by entry;
    - for complex parameters [v] is a sum of squared moduli; its imaginary part
      is always 0 and is left out;
    - [clip] is [None] for infinity. *)
From Coq Require Import Reals.
From Verif Require Import Base TreeUtil Batch Train.
Local Open Scope R_scope.
Local Open Scope list_scope.

(** L128-134, L210-216; [h_lr] is the schedule made by [make_schedule]. *)
Record hyper := mk_hyper { h_lr : nat -> R; h_b1 : R; h_b2 : R; h_eps : R; h_clip : option R }.
(** [make_schedule], L113-124. *)
Inductive rate := Fixed (r : R) | Schedule (f : nat -> R).
Definition make_schedule (s : rate) : nat -> R := match s with Schedule f => fun i => f i | Fixed r => fun _ => r end.

(** [np.clip(x, -c, c)] *)
Definition clip (c : option R) (x : R) : R := match c with None => x | Some c => Rmin (Rmax x (- c)) c end.

(** adam, L164-174; complex_adam for real parameters, L257-266. *)
Definition real_entry (h : hyper) (dx x : R) (mv : R * R) (i : nat) : R * (R * R) :=
  let dx := clip (h_clip h) dx in
  let m := h_b1 h * fst mv + (1 - h_b1 h) * dx in
  let v := h_b2 h * snd mv + (1 - h_b2 h) * dx ^ 2 in
  let m_hat := m / (1 - h_b1 h ^ (i + 1)) in
  let v_hat := v / (1 - h_b2 h ^ (i + 1)) in
  (x - h_lr h i * m_hat / (sqrt v_hat + h_eps h), (m, v)).

(** complex_adam for complex parameters, L248-266. A complex number is the pair
    of its parts. *)
Definition cplx := (R * R)%type.
Definition complex_entry (h : hyper) (dx x : cplx) (mv : cplx * R) (i : nat) : cplx * (cplx * R) :=
  let re := clip (h_clip h) (fst dx) in
  let im := - clip (h_clip h) (snd dx) in
  let m := (h_b1 h * fst (fst mv) + (1 - h_b1 h) * re, h_b1 h * snd (fst mv) + (1 - h_b1 h) * im) in
  let v := h_b2 h * snd mv + (1 - h_b2 h) * (re * re + im * im) in
  let c := 1 - h_b1 h ^ (i + 1) in
  let d := sqrt (v / (1 - h_b2 h ^ (i + 1))) + h_eps h in
  ((fst x - h_lr h i * (fst m / c) / d, snd x - h_lr h i * (snd m / c) / d), (m, v)).

(** All entries of an array. *)
Fixpoint on_entries {G P MV} (f : G -> P -> MV -> nat -> P * MV) (dx : list G) (x : list P) (mv : list MV) (i : nat) : list P * list MV :=
  match dx, x, mv with
  | d :: dx', a :: x', b :: mv' =>
      let (a', b') := f d a b i in
      let (X, M) := on_entries f dx' x' mv' i in (a' :: X, b' :: M)
  | _, _, _ => ([], [])
  end.
(** L148-154, L230-236 *)
Definition adam_init {P MV} (zero : MV) (x0 : list P) : ostate (list P) (list MV) := mk_ostate x0 (map (fun _ => zero) x0) 0%nat.
Definition real_init : list R -> ostate (list R) (list (R * R)) := adam_init (0, 0).
Definition complex_init : list cplx -> ostate (list cplx) (list (cplx * R)) := adam_init ((0, 0), 0).
(** L156-175; L238-268 for real and for complex parameters. *)
Definition adam (h : hyper) := adam_update (on_entries (real_entry h)).
Definition complex_adam_real (h : hyper) := complex_adam_update (on_entries (real_entry h)).
Definition complex_adam_complex (h : hyper) := complex_adam_update (on_entries (complex_entry h)).

(** Successive updates, one for every batch (L355-364). *)
Definition steps {G P MV} (update : G -> ostate P MV -> ostate P MV) (gs : list G) (s : ostate P MV) : ostate P MV :=
  fold_left (fun s g => update g s) gs s.
(** One epoch of training for a trainable parameter: the updates and
    [increment_epoch] (L1046-1049); the callback leaves the parameters alone. *)
Definition epoch {G P MV} (update : G -> ostate P MV -> ostate P MV) (gs : list G) (s : ostate P MV) : ostate P MV :=
  increment_epoch 1 (steps update gs s).
