(** C114: modules reached by path; C115: readiness and the reason given for its lack. *)
From Coq Require Import ZArith.
From Verif Require Import Base TreeUtil Edit EditSpec EditProofs Access AccessSpec AccessProofs.
Local Open Scope list_scope.

(** Reading gives the object in the place that the path leads to, and nothing else. *)
Theorem C114_read : forall i o c p x, wf c ->
  get_path i o c p = Ok x <-> exists a, follows c p a /\ node_at c a = Some x.
Proof. intros i o c p x W. split; [apply getp_follows|]. intros (a & F & K). exact (follows_getp c p a x W F K). Qed.

(** a small model: a list of a module, a compiled model with a dictionary of modules
    (one of them a list), and a tuple *)
Definition inner : node := Mdl true true (DictN [(KS "a"%string, Mod 1 true); (KS "layers"%string, ListN [Mod 2 true; Mod 3 true])]).
Definition outer : node := ListN [Mod 0 true; inner; TupN [Mod 4 true; Mod 5 false]].
Example C114_outer_wf : wf outer /\ get_path true true outer [KI 1; KS "layers"; KI (-1)] = Ok (Mod 3 true).
Proof.
  split; [|reflexivity]. constructor. constructor; [constructor|]. constructor; [|constructor; [|constructor]].
  - constructor. constructor; [repeat constructor; cbn; intuition discriminate|]. constructor; [constructor|]. constructor; [|constructor]. cbn. constructor. repeat constructor.
  - constructor. repeat constructor.
Qed.

(** An assignment that is not refused stores the object in the place the path leads
    to, or as a new entry of a dictionary, and changes nothing else; reading the
    path then gives it ([model[None] = module] stores a list with the module). *)
Definition assigned (p : list key) (k : key) (x : node) (c c' : node) : Prop := exists q a, follows c p a /\ node_at c a = Some q /\
  ((exists b, leads q k b /\ node_at q b <> None /\ replaced_at (a ++ b) (stored q k x) c c') \/ exists b, (b = [] \/ is_mdl q /\ b = [0]) /\ new_entry (a ++ b) k x c c').
Theorem C114_write : forall i o c p k x m, set_path i o c (p ++ [k]) x = (m, Ok tt) -> exists c', m = Mdl false false c' /\ assigned p k x c c' /\
  exists y, get_path false false c' (p ++ [k]) = Ok y /\ (k <> KN -> y = x).
Proof.
  intros i o c p k x m H. unfold set_path in H. destruct (setp c (p ++ [k]) x) as [c' r] eqn:S. injection H as <- ->. exists c'. split; [reflexivity|].
  destruct (setp_at c p k x c' S) as (q & a & Q & F & K & C). split; [exists q, a; auto|]. destruct (setp_get c p k x c' S) as (q' & Q' & G).
  exists (stored q' k x). split; [exact G|]. intros NE. unfold stored. destruct q'; try reflexivity. destruct k; try reflexivity. congruence.
Qed.
Theorem C114_elsewhere : forall a x c c' b, replaced_at a x c c' -> apart a b -> node_at c' b = node_at c b.
Proof. intros a x c c' b R A. exact (replaced_apart a x c c' b R A). Qed.
Example C114_write_example : exists c', set_path true true outer [KI 1; KS "layers"; KI 0] (Mod 9 false) = (Mdl false false c', Ok tt) /\
  node_at c' [1; 0; 1; 0] = Some (Mod 9 false) /\ node_at c' [1; 0; 1; 1] = Some (Mod 3 true) /\ apart [1; 0; 1; 0] [1; 0; 1; 1].
Proof. eexists. split; [reflexivity|]. split; [reflexivity|]. split; [reflexivity|]. split; intros t H; discriminate. Qed.

(** A refused assignment leaves all modules where they were. *)
Theorem C114_refused : forall i o c p x m e, set_path i o c p x = (m, Err e) -> same_modules (Mdl i o c) m.
Proof.
  intros i o c p x m e H. unfold set_path in H. destruct (setp c p x) as [c' r] eqn:S. injection H as <- ->. constructor. exact (setp_fails c p x c' e S).
Qed.
(** When assignments are accepted: by what the last container is. *)
Definition assignable (q : node) (k : key) : Prop :=
  match q with
  | DictN _ => True
  | ListN l => exists z, k = KI z /\ in_range z l
  | Mdl _ _ m =>
      match k, m with
      | KN, _ => True
      | KS _, DictN _ => True
      | KI z, ListN l => in_range z l
      | _, _ => False
      end
  | _ => False
  end.
Lemma set1_accepts q k x : snd (set1 q k x) = Ok tt <-> assignable q k.
Proof.
  assert (A : forall (l : list node) z, (exists l', py_set l z x = Ok l') <-> in_range z l).
  { intros l z. split; [|intros R; destruct (py_set_ok l z x R) as (l' & E & _); eauto]. intros (l' & E). unfold py_set in E. destruct (index l z) as [j|] eqn:J; [|discriminate].
    pose proof (index_ok l z j J) as P. unfold points, in_range in *. lia. }
  destruct q as [m r|i o m|d|l|l]; cbn [set1].
  - cbn. split; [discriminate|intros []].
  - destruct k as [s|z| |j]; [| |cbn; tauto|].
    + destruct m; cbn; split; try discriminate; try (intros []; fail); auto.
    + destruct m as [m r|i' o' m|d|l|l]; cbn; try (split; [discriminate|intros []]).
      specialize (A l z). destruct (py_set l z x) as [l'|e]; cbn; split; intros H; try reflexivity.
      * apply A; eauto.
      * discriminate.
      * apply A in H as (l' & H). discriminate.
    + destruct m; cbn; split; try discriminate; intros [].
  - cbn. tauto.
  - destruct k as [s|z| |j]; cbn; try (split; [discriminate|intros (z & H & _); discriminate]).
    specialize (A l z). destruct (py_set l z x) as [l'|e]; cbn; split; intros H; try reflexivity.
    + exists z. split; [reflexivity|]. apply A; eauto.
    + discriminate.
    + destruct H as (z' & E & H). injection E as <-. apply A in H as (l' & H). discriminate.
  - cbn. split; [discriminate|intros []].
Qed.
Theorem C114_accepted_iff : forall i o c p k x, snd (set_path i o c (p ++ [k]) x) = Ok tt <-> exists q, getp c p = Ok q /\ assignable q k.
Proof.
  intros i o c p k x. unfold set_path. replace (snd (let '(c', r) := setp c (p ++ [k]) x in (Mdl false false c', r))) with (snd (setp c (p ++ [k]) x)) by now destruct (setp c (p ++ [k]) x).
  revert c. induction p as [|j p IH]; intros c; cbn [app].
  - cbn [setp getp]. rewrite set1_accepts. split; [eauto|]. intros (q & E & H). injection E as <-. exact H.
  - assert (E : exists k' p', p ++ [k] = k' :: p') by (destruct p; cbn; eauto). destruct E as (k' & p' & E). rewrite E, setp_cons, <- E. cbn [getp].
    destruct (get1 c j) as [m|e]; cbn [rbind].
    + rewrite <- IH. now destruct (setp m (p ++ [k]) x).
    + cbn. split; [discriminate|]. intros (q & H & _). discriminate.
Qed.
Example C114_tuple_example : snd (set_path true true outer [KI 2; KI 0] (Mod 9 true)) = Err TypeError.
Proof. reflexivity. Qed.

(** After an assignment no model that contains the place counts as compiled? *)
Definition C114_reset_always : Prop := forall i o c p k x m a, wf c -> set_path i o c (p ++ [k]) x = (m, Ok tt) -> follows c (p ++ [k]) a -> none_compiled (0 :: a) m.
(** True of the outermost model and of a model that is the last but one object of the
    path, false of the others: *)
Theorem C114_outermost : forall i o c p x m r, set_path i o c p x = (m, r) -> exists c', m = Mdl false false c'.
Proof. intros i o c p x m r H. unfold set_path in H. destruct (setp c p x) as [c' r']. injection H as <- _. eauto. Qed.
Theorem C114_parent : forall i o c k x, exists c', fst (setp (Mdl i o c) [k] x) = Mdl false false c'.
Proof. intros i o c k x. cbn [setp]. destruct k; cbn [set1 fst]; [| |eauto|]; destruct (let* _ := fits c _ in set_item c _ x); cbn; eauto. Qed.
Theorem C114_kept : forall i o c k k' p x, exists c', fst (setp (Mdl i o c) (k :: k' :: p) x) = Mdl i o c'.
Proof.
  intros i o c k k' p x. rewrite setp_cons. destruct (get1 (Mdl i o c) k) as [m|]; [|cbn; eauto]. destruct (setp m (k' :: p) x) as [m' r]. cbn [fst change]. destruct k; eauto.
Qed.
Theorem C114_reset_refuted : ~ C114_reset_always.
Proof.
  intros H. destruct C114_outer_wf as [W _]. specialize (H true true outer [KI 1; KS "layers"] (KI 0) (Mod 9 false) _ [1; 0; 1; 0] W eq_refl).
  assert (F : follows outer ([KI 1; KS "layers"] ++ [KI 0]) [1; 0; 1; 0]).
  { apply (f_cons outer (KI 1) _ [1] inner [0; 1; 0]); [|reflexivity|].
    - constructor. constructor. unfold points. cbn. lia.
    - apply (f_cons inner (KS "layers") _ [0; 1] (ListN [Mod 2 true; Mod 3 true]) [0]); [|reflexivity|].
      + apply l_name. econstructor. reflexivity.
      + apply (f_cons _ (KI 0) _ [0] (Mod 2 true) []); [|reflexivity|constructor]. constructor. constructor. unfold points. cbn. lia. }
  specialize (H F [0; 1] [0; 1; 0] true true). cbn in H. destruct (H _ eq_refl ltac:(discriminate) eq_refl). discriminate.
Qed.

(** Paths as [jax.tree_util] reports them never lead to a module whose dictionaries
    have strings as keys, and assigning with one adds an entry. *)
Inductive string_keys : node -> Prop :=
| sk_mod n r : string_keys (Mod n r)
| sk_mdl i o c : string_keys c -> string_keys (Mdl i o c)
| sk_dict d : (forall k x, In (k, x) d -> exists s, k = KS s) -> string_keys (DictN d)
| sk_list l : string_keys (ListN l)
| sk_tup l : string_keys (TupN l).
Theorem C114_jax_paths_never : forall i o c n p x, string_keys c -> get_path i o c (KO n :: p) <> Ok x.
Proof.
  intros i o c n p x S H. unfold get_path in H. cbn [getp] in H. destruct S as [m r|a b c' S|d K|l|l]; cbn in H; try discriminate.
  - destruct (klook d (KO n)) as [y|] eqn:E; [|discriminate]. destruct (klook_some d _ y E) as (u & v & -> & _). destruct (K (KO n) y) as (s & Hs); [apply in_or_app; right; left; reflexivity|discriminate].
Qed.
Theorem C114_jax_paths_added : forall i o d n x, string_keys (DictN d) -> set_path i o (DictN d) [KO n] x = (Mdl false false (DictN (d ++ [(KO n, x)])), Ok tt).
Proof.
  intros i o d n x S. inversion S as [| |d' K| |]; subst. unfold set_path. cbn. destruct (klook d (KO n)) as [y|] eqn:E.
  - destruct (klook_some d _ y E) as (u & v & -> & _). destruct (K (KO n) y) as (s & Hs); [apply in_or_app; right; left; reflexivity|discriminate].
  - destruct (klook_none d _ E) as [_ R]. now rewrite R.
Qed.
Example C114_jax_example : string_keys (DictN [(KS "a"%string, Mod 1 true)]) /\ get_path true true (DictN [(KS "a"%string, Mod 1 true)]) [KO 0] = Err KeyError.
Proof. split; [|reflexivity]. constructor. intros k x [E|[]]. injection E as <- _. eauto. Qed.

(** *** C115 *)
(** A model that follows the base class counts as ready exactly if it and everything
    in it is usable. *)
Theorem C115_ready_iff : forall i o c, is_ready (Mdl i o c) = true <-> usable (Mdl i o c).
Proof. intros i o c. apply (leaf_ready (Mdl i o c)). left. reflexivity. Qed.
(** If it is not ready, the reason is true, and a model is ready exactly if there is none. *)
Theorem C115_reason : forall i o c, is_ready (Mdl i o c) = false -> true_reason i o c (unready_reason i o c).
Proof.
  intros i o c H. unfold unready_reason. destruct (Nat.eqb_spec (length (leaves c)) 0) as [E|E]; [cbn; now apply length_zero_iff_nil|].
  assert (L : Nat.ltb 0 (length (leaves c)) = true) by (apply Nat.ltb_lt; lia).
  destruct (Nat.ltb_spec 0 (length (unready_modules c))) as [U|U].
  - cbn [true_reason]. split; [intros N; rewrite N in U; cbn in U; lia|]. intros m. unfold unready_modules. rewrite filter_In. split; intros [I R]; (split; [exact I|]).
    + intros Us. rewrite (usable_ready m Us) in R. discriminate.
    + destruct (is_ready m) eqn:D; [|reflexivity]. exfalso. apply R. now apply (leaf_ready c m I).
  - assert (R : is_ready c = true).
    { rewrite ready_leaves. apply forallb_forall. intros m I. destruct (is_ready m) eqn:D; [reflexivity|]. assert (X : In m (unready_modules c)) by (unfold unready_modules; rewrite filter_In, D; auto).
      destruct (unready_modules c); [destruct X|cbn in U; lia]. }
    cbn [is_ready] in H. rewrite L, R in H. destruct i, o; cbn in *; congruence.
Qed.
Theorem C115_unknown_iff : forall i o c, unready_reason i o c = Unknown <-> is_ready (Mdl i o c) = true.
Proof.
  intros i o c. split.
  - intros E. destruct (is_ready (Mdl i o c)) eqn:R; [reflexivity|]. pose proof (C115_reason i o c R) as T. rewrite E in T. destruct T.
  - intros R. cbn [is_ready] in R. apply andb_prop in R as [R ->]. apply andb_prop in R as [R ->]. apply andb_prop in R as [L R]. apply Nat.ltb_lt in L.
    unfold unready_reason. destruct (Nat.eqb_spec (length (leaves c)) 0) as [E|E]; [lia|]. destruct (Nat.ltb_spec 0 (length (unready_modules c))) as [U|U]; [|reflexivity].
    destruct (unready_modules c) as [|m l] eqn:F; [cbn in U; lia|]. assert (X : In m (unready_modules c)) by (rewrite F; left; reflexivity).
    unfold unready_modules in X. rewrite filter_In in X. destruct X as [I D]. rewrite ready_leaves, forallb_forall in R. rewrite (R m I) in D. discriminate.
Qed.
Example C115_example : is_ready (Mdl true true outer) = false /\ unready_reason true true outer = Unready [Mod 5 false].
Proof. split; reflexivity. Qed.

(** Graph models have their own notion of being ready and inherit the reasons.  These
    may be unknown or name modules that are not needed. *)
Definition C115_graph_always : Prop := forall order i o c, (forall ms m, order = Some ms -> In m ms -> In m (leaves c)) -> graph_ready order i o = false ->
  unready_reason i o c <> Unknown.
Theorem C115_graph_refuted : ~ C115_graph_always.
Proof. intros H. apply (H None true true (ListN [Mod 0 true])); [discriminate|reflexivity|reflexivity]. Qed.
(** With an execution order the reason is known. *)
Theorem C115_graph_partial : forall ms i o c, (forall m, In m ms -> In m (leaves c)) -> graph_ready (Some ms) i o = false ->
  unready_reason i o c <> Unknown.
Proof.
  intros ms i o c S G E. apply C115_unknown_iff in E. cbn [is_ready] in E. apply andb_prop in E as [E ->]. apply andb_prop in E as [E ->]. apply andb_prop in E as [_ R].
  rewrite ready_leaves, forallb_forall in R. cbn in G. rewrite !andb_true_r in G. assert (X : forallb is_ready ms = true) by (apply forallb_forall; intros m I; exact (R m (S m I))). congruence.
Qed.
Example C115_graph_example : graph_ready (Some [Mod 0 false]) true true = false /\ unready_reason true true (ListN [Mod 0 false; Mod 1 true]) = Unready [Mod 0 false].
Proof. split; reflexivity. Qed.

Print Assumptions C114_write.
Print Assumptions C114_accepted_iff.
Print Assumptions C114_reset_refuted.
Print Assumptions C115_reason.
Print Assumptions C115_graph_refuted.
