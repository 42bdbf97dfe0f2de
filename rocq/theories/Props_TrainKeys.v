(** Property C124: every training step has random numbers of its own. *)
From Coq Require Import ZArith Lia.
From Verif Require Import Base BaseLemmas TreeUtil Batch Train TrainSpec TrainSteps Draws DrawsSpec Props_Draws TrainKeys.
Local Open Scope list_scope.
Local Open Scope nat_scope.

(** the keys of the first [n] steps of a chain that starts with [r] *)
Definition chain (r : key) (n : nat) : key := r ++ repeat 0 n.
Definition step_keys (r : key) (n : nat) : list key := map (fun i => chain r i ++ [1]) (seq 0 n).

Lemma chain_S r n : child (chain r n) 0 = chain r (S n).
Proof. unfold child, chain. rewrite <- app_assoc. f_equal. induction n as [|n IH]; cbn; [reflexivity|]. now rewrite IH. Qed.
Lemma step_keys_S r n : step_keys r n ++ [child (chain r n) 1] = step_keys r (S n).
Proof. unfold step_keys. rewrite seq_S, map_app. reflexivity. Qed.
Lemma chain_apart r i j x : i < j -> derived (chain r j) x -> unrelated (chain r i ++ [1]) x.
Proof.
  intros L D. apply (child_apart (chain r i) 1 0); [apply derived_refl| |lia]. eapply derived_trans; [|exact D].
  exists (repeat 0 (j - S i)). rewrite chain_S. unfold chain. rewrite <- app_assoc, <- repeat_app. do 2 f_equal. lia.
Qed.
Lemma step_keys_below r n m : forall x, In x (map (fun i => chain r i ++ [1]) (seq n m)) -> exists j, n <= j < n + m /\ x = chain r j ++ [1].
Proof. intros x H. apply in_map_iff in H as (j & <- & H). apply in_seq in H. eauto. Qed.
Lemma step_keys_independent r n : independent (step_keys r n).
Proof.
  assert (A : forall i, independent (map (fun i => chain r i ++ [1]) (seq i n))); [|apply (A 0)].
  induction n as [|n IH]; intros i; cbn [seq map]; [constructor|]. constructor; [|apply IH].
  apply Forall_forall. intros x H. apply step_keys_below in H as (j & Hj & ->). apply (chain_apart r i j); [lia|exists [1]; reflexivity].
Qed.
Lemma step_keys_chain r n x : In x (step_keys r n) -> unrelated x (chain r n).
Proof. intros H. apply (step_keys_below r 0 n) in H as (j & Hj & ->). apply (chain_apart r j n); [lia|apply derived_refl]. Qed.

(* ------------------------------------------------------------------ *)
(** ** Modules inside sequential models *)
Lemma net_nested_ind (Q : net -> Prop) : Q Module -> (forall l, Forall Q l -> Q (Sequence l)) -> forall m, Q m.
Proof. intros H1 H2. fix IH 1. intros [|l]; [exact H1|]. apply H2. induction l as [|x l IHl]; constructor; [apply IH|exact IHl]. Qed.
Lemma module_keys_good m : forall k, good k (module_keys m k).
Proof.
  induction m as [|l H] using net_nested_ind; intros k; [apply good_one|]. cbn [module_keys].
  assert (A : forall i, good k ((fix go (i : nat) (l : list net) := match l with [] => [] | x :: l' => module_keys x (child k i) ++ go (S i) l' end) i l) /\
    forall x, In x ((fix go (i : nat) (l : list net) := match l with [] => [] | x :: l' => module_keys x (child k i) ++ go (S i) l' end) i l) -> exists j, i <= j /\ derived (child k j) x).
  { induction H as [|m l Hm H IH]; intros i; [split; [apply good_nil|intros x []]|]. destruct (IH (S i)) as [[B I] J]. destruct (Hm (child k i)) as [Bm Im].
    pose proof Bm as Bm'. unfold below in Bm'. rewrite Forall_forall in Bm'. split.
    - split; [apply below_app; split; [exact (below_up _ _ _ (derived_child k i) Bm)|exact B]|]. apply independent_app; [exact Im|exact I|].
      intros x y Hx Hy. destruct (J y Hy) as (j & Hj & Dj). eapply child_apart; [exact (Bm' x Hx)|exact Dj|lia].
    - intros x Hx. apply in_app_iff in Hx as [Hx|Hx]; [exists i; split; [lia|exact (Bm' x Hx)]|]. destruct (J x Hx) as (j & Hj & Dj). exists j. split; [lia|exact Dj]. }
  exact (proj1 (A 0)).
Qed.
Lemma unrelated_below a b x y : unrelated a b -> derived a x -> derived b y -> unrelated x y.
Proof.
  intros U [p ->] [q ->]. assert (A : forall (a b r s : key), a ++ r = b ++ s -> derived a b \/ derived b a).
  { clear. induction a as [|u a IH]; intros [|w b] r s E; [left; apply derived_refl|left; eexists; reflexivity|right; eexists; reflexivity|]. cbn in E. injection E as <- E. destruct (IH _ _ _ E) as [[z ->]|[z ->]]; [left|right]; eexists; reflexivity. }
  destruct U as [U1 U2]. split; intros [r E]; rewrite <- app_assoc in E; destruct (A _ _ _ _ E); tauto.
Qed.

(* ------------------------------------------------------------------ *)
(** ** Training *)
Section Main.
Context {S1 S2 S3 P G MV St F : Type}.
Notation OS := (ostate P MV).
Context (update : G -> OS -> OS)
  (dloss : nat -> dataset S1 S2 S3 -> bool -> St * list key -> key -> list P -> result ((nat -> G) * (St * list key)))
  (vloss : nat -> dataset S1 S2 S3 -> St * list key -> key -> list P -> result F)
  (perm : key -> nat -> list nat) (fzero : F) (fadd fsub : F -> F -> F) (fdivn : F -> nat -> F) (flt fle : F -> F -> bool).
(** the model notes the key of every call in training in its state *)
Definition notes_keys : Prop := forall e b t st ks k ps g s', dloss e b t (st, ks) k ps = Ok (g, s') -> snd s' = ks ++ [k].
Notation train := (train_loop update dloss vloss split2 perm fzero fadd fsub fdivn flt fle).

Definition on_chain (r : key) (c : list OS * (St * list key) * key) : Prop :=
  exists n, snd c = chain r n /\ snd (snd (fst c)) = step_keys r n.

Lemma step_on_chain r flags e b c c' : notes_keys -> on_chain r c -> train_step update dloss split2 flags e b c = Ok c' -> on_chain r c'.
Proof.
  intros N (n & Hk & Hs) H. destruct c as [[adams [st ks]] k]. cbn in Hk, Hs. subst. unfold train_step in H. cbn [split2] in H.
  apply rbind_ok in H as ([dp st'] & H1 & H). apply rbind_ok in H as (adams' & _ & H). injection H as <-.
  unfold grad_loss_fn in H1. apply rbind_ok in H1 as ([g s'] & H1 & E). injection E as _ <-. apply N in H1.
  exists (S n). cbn [fst snd]. split; [apply chain_S|]. rewrite H1. apply step_keys_S.
Qed.
Lemma steps_on_chain r flags e bs c c' : notes_keys -> steps (fun b s s' => train_step update dloss split2 flags e b s = Ok s') bs c c' -> on_chain r c -> on_chain r c'.
Proof. intros N H. induction H as [s|b bs s s1 s2 H _ IH]; [auto|]. intros O. apply IH. exact (step_on_chain _ _ _ _ _ _ N O H). Qed.
Lemma after_on_chain r (cf : @settings P key F) rng e (c c' : list OS * (St * list key) * key) rng' : on_chain r c -> after_epoch cf rng e c = (rng', c') -> on_chain r c'.
Proof. intros (n & Hk & Hs) H. destruct c as [[adams s] k]. cbn in H. destruct (c_callback cf rng e (map ox adams)) as [q ps]. injection H as <- <-. exists n. cbn in *. auto. Qed.

Lemma body_on_chain r cf D DV t t' : notes_keys -> on_chain r (t_carry t) -> on_chain r (t_best t) ->
  epoch_body update dloss vloss split2 perm fzero fadd fsub fdivn flt fle cf D DV t = Ok t' -> on_chain r (t_carry t') /\ on_chain r (t_best t').
Proof.
  intros N Hc Hb H. unfold epoch_body in H. apply rbind_ok in H as ([[rng c] v] & H1 & H). unfold epoch_work in H1. cbn [split2] in H1.
  apply rbind_ok in H1 as (c1 & H1 & H2). destruct c1 as [[adams st] mrng]. apply rbind_ok in H2 as (v' & _ & H2). injection H2 as <- <- <-.
  apply epoch_steps_any in H1 as (n & l & _ & _ & H1). pose proof (steps_on_chain r _ _ _ _ _ N H1 Hc) as Hc1.
  destruct (after_epoch cf _ (t_epoch t) (adams, st, mrng)) as [rng' c'] eqn:Ea. apply (after_on_chain r) in Ea; [|exact Hc1].
  destruct (flt v' (t_best_val t)); injection H as <-; cbn [t_carry t_best]; auto.
Qed.
Lemma loop_on_chain r cf D DV fuel : forall t t', notes_keys -> on_chain r (t_carry t) -> on_chain r (t_best t) ->
  epoch_loop update dloss vloss split2 perm fzero fadd fsub fdivn flt fle fuel cf D DV t = Ok t' -> on_chain r (t_best t').
Proof.
  induction fuel as [|fuel IH]; intros t t' N Hc Hb; cbn [epoch_loop]; destruct (epoch_cond flt cf t); try discriminate; try (intros E; injection E as <-; exact Hb).
  intros H. apply rbind_ok in H as (t1 & H1 & H). destruct (body_on_chain r _ _ _ _ _ N Hc Hb H1). eauto.
Qed.
Lemma train_on_chain cf D DV brng start adams st0 k c e v be : notes_keys ->
  train cf D DV brng start adams (st0, []) k = Ok (c, e, v, be) -> on_chain (child k 0) c.
Proof.
  intros N H. unfold train_loop in H. cbn [split2] in H. apply rbind_ok in H as (v0 & _ & H). apply rbind_ok in H as (u & _ & H). apply rbind_ok in H as (t & H & E). injection E as <- _ _ _.
  refine (loop_on_chain (child k 0) _ _ _ _ _ _ N _ _ H); exists 0; cbn; unfold chain; rewrite app_nil_r; auto.
Qed.

(** The keys of the steps that led to the returned parameters are independent,
    and the returned key is not related to any of them. *)
Theorem C124_steps cf D DV brng start adams st0 k c e v be : notes_keys ->
  train cf D DV brng start adams (st0, []) k = Ok (c, e, v, be) ->
  independent (snd (snd (fst c))) /\ Forall (fun x => unrelated x (snd c)) (snd (snd (fst c))) /\ Forall (derived k) (snd c :: snd (snd (fst c))).
Proof.
  intros N H. destruct (train_on_chain _ _ _ _ _ _ _ _ _ _ _ _ N H) as (n & -> & ->). split; [apply step_keys_independent|]. split.
  - apply Forall_forall. intros x Hx. exact (step_keys_chain _ _ _ Hx).
  - constructor; [eapply derived_trans; [apply (derived_child k 0)|exists (repeat 0 n); reflexivity]|].
    apply Forall_forall. intros x Hx. apply (step_keys_below _ 0 n) in Hx as (j & _ & ->). eapply derived_trans; [apply (derived_child k 0)|]. exists (repeat 0 j ++ [1]). unfold chain. now rewrite app_assoc.
Qed.

(** All modules of a sequential model of any nesting, in all steps that led to the
    returned parameters, have independent keys; the same goes for what is done
    with the returned key later. *)
Theorem C124_modules cf D DV brng start adams st0 k c e v be m : notes_keys ->
  train cf D DV brng start adams (st0, []) k = Ok (c, e, v, be) ->
  independent (flat_map (module_keys m) (snd (snd (fst c)) ++ [snd c])).
Proof.
  intros N H. destruct (C124_steps _ _ _ _ _ _ _ _ _ _ _ _ N H) as (I & U & _). 
  assert (J : independent (snd (snd (fst c)) ++ [snd c])).
  { apply independent_app; [exact I|constructor; constructor|]. intros x y Hx [ <- | [] ]. rewrite Forall_forall in U. exact (U x Hx). }
  clear - J. induction J as [|a l Ha J IH]; [constructor|]. cbn [flat_map]. apply independent_app; [apply module_keys_good|exact IH|].
  intros x y Hx Hy. apply in_flat_map in Hy as (b & Hb & Hy). rewrite Forall_forall in Ha. apply (unrelated_below a b); [exact (Ha b Hb)| |].
  - destruct (module_keys_good m a) as [B _]. unfold below in B. rewrite Forall_forall in B. exact (B x Hx).
  - destruct (module_keys_good m b) as [B _]. unfold below in B. rewrite Forall_forall in B. exact (B y Hy).
Qed.

(** The validation before the first epoch is done with a key from which the keys
    of all training steps are obtained, the first of them directly. *)
Theorem C124_validation cf D DV brng start adams st0 k c e v be : notes_keys ->
  train cf D DV brng start adams (st0, []) k = Ok (c, e, v, be) ->
  exists kv v0, batched_val_loss vloss perm fzero fadd fdivn (c_val_batch cf) DV (map ox adams) (st0, []) kv (child k 1) start = Ok v0 /\
    Forall (derived kv) (snd (snd (fst c))) /\ (snd (snd (fst c)) = [] \/ hd_error (snd (snd (fst c))) = Some (child kv 1)).
Proof.
  intros N H. exists (child k 0). destruct (train_on_chain _ _ _ _ _ _ _ _ _ _ _ _ N H) as (n & _ & ->).
  unfold train_loop in H. cbn [split2] in H. apply rbind_ok in H as (v0 & Hv & _). exists v0. split; [exact Hv|]. split.
  - apply Forall_forall. intros x Hx. apply (step_keys_below _ 0 n) in Hx as (j & _ & ->). exists (repeat 0 j ++ [1]). unfold chain. now rewrite app_assoc.
  - destruct n as [|n]; [now left|right]. cbn. unfold chain. now rewrite app_nil_r.
Qed.
End Main.

(* ------------------------------------------------------------------ *)
(** ** Example: four samples in batches of two, a loss that counts down; the
    validation loss is the list of the keys it was computed with *)
Definition x_dloss (e : nat) (b : dataset nat nat nat) (t : bool) (s : unit * list key) (k : key) (ps : list nat) : result ((nat -> nat) * (unit * list key)) :=
  Ok (fun _ => 1, (tt, snd s ++ [k])).
Definition x_vloss (e : nat) (b : dataset nat nat nat) (s : unit * list key) (k : key) (ps : list nat) : result (list key) := Ok [k].
Definition x_update (g : nat) (s : ostate nat nat) : ostate nat nat := mk_ostate (ox s + g) (omv s) (oi s).
Definition x_data : dataset nat nat nat := (Leaf [10; 11; 12; 13], Some (Leaf [0; 1; 2; 3]), None).
Definition x_cf (epochs : nat) : @settings nat key (list key) :=
  mk_settings [true] 2 4 epochs [] 5%Z [] false (fun _ => false) (fun k _ ps => (k, ps)).
Definition x_train (epochs : nat) :=
  train_loop x_update x_dloss x_vloss split2 (fun _ n => seq 0 n) [] (@app key) (fun a _ => a) (fun a _ => a) (fun _ _ => true) (fun _ _ => true)
    (x_cf epochs) x_data x_data [7] 0 [mk_ostate 5 0 0] (tt, []) [].

Example C124_notes : notes_keys x_dloss.
Proof. intros e b t st ks k ps g s' H. injection H as _ <-. reflexivity. Qed.
Example C124_example : rmap (fun r => (snd (snd (fst (fst (fst (fst r))))), snd (fst (fst (fst r))))) (x_train 2) =
  Ok ([[0; 1]; [0; 0; 1]; [0; 0; 0; 1]; [0; 0; 0; 0; 1]], [0; 0; 0; 0; 0]).
Proof. vm_compute. reflexivity. Qed.

(** No module gets the same key in the validation before training and in a
    training step, whatever the sequential model. *)
Definition C124_validation_always : Prop := forall m n c e kvs be c' e' v' be' kv kt x,
  x_train 0 = Ok (c, e, kvs, be) -> x_train n = Ok (c', e', v', be') -> In kv kvs -> In kt (snd (snd (fst c'))) ->
  In x (module_keys m kv) -> In x (module_keys m kt) -> False.
(** False: in [[a; [b; c]]] the module [b] gets in validation the key that [a]
    gets in the first training step. *)
Theorem C124_validation_refuted : ~ C124_validation_always.
Proof.
  intros H. eapply (H (Sequence [Module; Sequence [Module; Module]]) 1) with (kv := [0]) (kt := [0; 1]) (x := [0; 1; 0]);
    [vm_compute; reflexivity|vm_compute; reflexivity|cbn; auto..].
Qed.

Print Assumptions C124_steps. Print Assumptions C124_modules. Print Assumptions C124_validation. Print Assumptions C124_validation_refuted.
