(** A small model of numpy/jax.numpy arrays: a shape and the elements in row-major
    order.  Used wherever the repository relies on broadcasting, reshaping or
    concatenation. *)
From Coq Require Import Arith.
From Verif Require Import Base.
Local Open Scope list_scope.

Record arr (V : Type) := mk_arr { shp : list nat; dat : list V }.
Arguments mk_arr {V}. Arguments shp {V}. Arguments dat {V}.

Definition prod (s : list nat) : nat := fold_right Nat.mul 1 s.
Definition wf_arr {V} (a : arr V) : Prop := length (dat a) = prod (shp a).

(** multi-index <-> position *)
Fixpoint ravel (s idx : list nat) : nat :=
  match s, idx with
  | _ :: s', i :: idx' => i * prod s' + ravel s' idx'
  | _, _ => 0
  end.
Fixpoint unravel (s : list nat) (n : nat) : list nat :=
  match s with
  | [] => []
  | _ :: s' => n / prod s' :: unravel s' (n mod prod s')
  end.

Definition amap {V W} (f : V -> W) (a : arr V) : arr W := mk_arr (shp a) (map f (dat a)).

(** *** broadcasting *)
Definition pad (k : nat) (s : list nat) : list nat := repeat 1 (k - length s) ++ s.
Fixpoint bdims (s t : list nat) : result (list nat) :=
  match s, t with
  | [], [] => Ok []
  | m :: s', n :: t' =>
      let* r := bdims s' t' in
      if m =? n then Ok (m :: r) else if m =? 1 then Ok (n :: r) else if n =? 1 then Ok (m :: r) else Err ValueError
  | _, _ => Err ValueError
  end.
(** the shape of the result of an operation on arrays of shapes [s] and [t];
    jax raises TypeError for incompatible shapes *)
Definition bshape (s t : list nat) : result (list nat) :=
  let k := Nat.max (length s) (length t) in
  match bdims (pad k s) (pad k t) with Ok r => Ok r | Err _ => Err TypeError end.
(** the index used in an array with padded shape [s] *)
Fixpoint clip (s idx : list nat) : list nat :=
  match s, idx with
  | n :: s', i :: idx' => (if n =? 1 then 0 else i) :: clip s' idx'
  | _, _ => []
  end.
Definition abin {V W X} (dv : V) (dw : W) (f : V -> W -> X) (a : arr V) (b : arr W) : result (arr X) :=
  let* out := bshape (shp a) (shp b) in
  let k := length out in
  let pa := pad k (shp a) in
  let pb := pad k (shp b) in
  Ok (mk_arr out (map (fun n => let i := unravel out n in
                     f (nth (ravel pa (clip pa i)) (dat a) dv) (nth (ravel pb (clip pb i)) (dat b) dw))
                  (seq 0 (prod out)))).

(* ------------------------------------------------------------------ *)
(** *** facts *)
Lemma prod_cons n s : prod (n :: s) = n * prod s.
Proof. reflexivity. Qed.
Lemma prod_app s t : prod (s ++ t) = prod s * prod t.
Proof. induction s as [|n s IH]; cbn [app]; [symmetry; apply Nat.mul_1_l|]. rewrite !prod_cons, IH. apply Nat.mul_assoc. Qed.

Lemma unravel_length s : forall n, length (unravel s n) = length s.
Proof. induction s as [|m s IH]; intros n; cbn; [reflexivity|]. rewrite IH. reflexivity. Qed.

Lemma ravel_unravel s : forall n, n < prod s -> ravel s (unravel s n) = n.
Proof.
  induction s as [|m s IH]; intros n H.
  - cbn in *. lia.
  - cbn [unravel ravel]. rewrite prod_cons in H. assert (prod s <> 0) by (intros E; rewrite E in H; lia).
    rewrite IH by (apply Nat.mod_upper_bound; assumption). pose proof (Nat.div_mod n (prod s) ltac:(assumption)). lia.
Qed.

(** valid multi-indices *)
Definition valid (s idx : list nat) : Prop := Forall2 (fun i n => i < n) idx s.
Lemma unravel_valid s : forall n, n < prod s -> valid s (unravel s n).
Proof.
  induction s as [|m s IH]; intros n H; cbn [unravel]; constructor.
  - rewrite prod_cons in H. apply Nat.div_lt_upper_bound; [intros E; rewrite E in H; lia|]. lia.
  - apply IH. apply Nat.mod_upper_bound. rewrite prod_cons in H. intros E. rewrite E in H. lia.
Qed.
Lemma ravel_bound s : forall idx, valid s idx -> ravel s idx < prod s.
Proof.
  induction s as [|m s IH]; intros idx H; inversion H as [|i n idx' s' Hi Hr]; subst; [cbn; lia|].
  cbn [ravel]. rewrite prod_cons. specialize (IH _ Hr). nia.
Qed.
Lemma unravel_ravel s : forall idx, valid s idx -> unravel s (ravel s idx) = idx.
Proof.
  induction s as [|m s IH]; intros idx H; inversion H as [|i n idx' s' Hi Hr]; subst; [reflexivity|].
  cbn [ravel unravel]. pose proof (ravel_bound s idx' Hr) as Hb.
  rewrite (Nat.div_add_l i (prod s) (ravel s idx')) by lia. rewrite Nat.div_small by exact Hb. rewrite Nat.add_0_r. f_equal.
  rewrite Nat.add_comm, Nat.mod_add by lia. rewrite Nat.mod_small by exact Hb. apply IH. exact Hr.
Qed.

Lemma pad_id s : pad (length s) s = s.
Proof. unfold pad. rewrite Nat.sub_diag. reflexivity. Qed.
Lemma bdims_refl s : bdims s s = Ok s.
Proof. induction s as [|n s IH]; cbn; [reflexivity|]. rewrite IH. cbn. rewrite Nat.eqb_refl. reflexivity. Qed.
Lemma bshape_refl s : bshape s s = Ok s.
Proof. unfold bshape. rewrite Nat.max_id, pad_id, bdims_refl. reflexivity. Qed.

Lemma clip_valid s : forall idx, valid s idx -> clip s idx = idx.
Proof.
  induction s as [|m s IH]; intros idx H; inversion H as [|i n idx' s' Hi Hr]; subst; [reflexivity|].
  cbn [clip]. rewrite (IH _ Hr). destruct (Nat.eqb_spec m 1); [|reflexivity]. f_equal. lia.
Qed.

Fixpoint map2 {A B C} (f : A -> B -> C) (l : list A) (m : list B) : list C :=
  match l, m with a :: l', b :: m' => f a b :: map2 f l' m' | _, _ => [] end.
Lemma map2_length {A B C} (f : A -> B -> C) l : forall m, length l = length m -> length (map2 f l m) = length l.
Proof. induction l as [|a l IH]; intros [|b m] H; cbn in *; try discriminate; [reflexivity|]. f_equal. apply IH. lia. Qed.
Lemma map2_seq {A B C} da db (f : A -> B -> C) l : forall m, length l = length m ->
  map (fun n => f (nth n l da) (nth n m db)) (seq 0 (length l)) = map2 f l m.
Proof.
  induction l as [|a l IH]; intros [|b m] H; cbn in H; try discriminate; [reflexivity|].
  cbn [length seq map map2 nth]. f_equal. rewrite <- seq_shift, map_map. apply IH. lia.
Qed.
Lemma map_map2 {A B C D} (g : C -> D) (f : A -> B -> C) l : forall m, map g (map2 f l m) = map2 (fun a b => g (f a b)) l m.
Proof. induction l as [|a l IH]; intros [|b m]; cbn; [reflexivity..|]. rewrite IH. reflexivity. Qed.

(** without broadcasting an operation is elementwise *)
Lemma abin_same {V W X} dv dw (f : V -> W -> X) a b : wf_arr a -> wf_arr b -> shp a = shp b ->
  abin dv dw f a b = Ok (mk_arr (shp a) (map2 f (dat a) (dat b))).
Proof.
  intros Ha Hb E. unfold abin. rewrite <- E, bshape_refl. cbn [rbind]. rewrite pad_id. do 2 f_equal.
  unfold wf_arr in *. rewrite <- E in Hb. rewrite <- (map2_seq dv dw) by congruence. rewrite <- Ha.
  apply map_ext_in. intros n Hn. apply in_seq in Hn. rewrite clip_valid by (apply unravel_valid; lia).
  rewrite ravel_unravel by lia. reflexivity.
Qed.
