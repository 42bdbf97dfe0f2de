(** resolve_connections does not look at names: it commutes with every
    injective renaming of the nodes. *)
From Verif Require Import Base BaseLemmas Resolve.
Open Scope list_scope.

Section Rename.
Variable f : string -> string.
Hypothesis Hf : forall a b, f a = f b -> a = b.

Definition rename_graph (g : graph) : graph := map (fun kv => (f (fst kv), map f (snd kv))) g.
Definition rename_dict {V} (d : dict V) : dict V := map (fun kv => (f (fst kv), snd kv)) d.

Lemma eqb_f a b : String.eqb (f a) (f b) = String.eqb a b.
Proof.
  destruct (String.eqb_spec a b) as [->|H]; [apply String.eqb_refl|].
  destruct (String.eqb_spec (f a) (f b)) as [E|]; [apply Hf in E; contradiction|reflexivity].
Qed.

Lemma dget_f {V} (d : dict V) k : dget (rename_dict d) (f k) = dget d k.
Proof. induction d as [|[k' v] d IH]; [reflexivity|]. simpl. rewrite eqb_f, IH. reflexivity. Qed.

Lemma dset_f {V} (d : dict V) k v : dset (rename_dict d) (f k) v = rename_dict (dset d k v).
Proof.
  induction d as [|[k' v'] d IH]; [reflexivity|]. simpl. rewrite eqb_f.
  destruct (String.eqb k k'); simpl; [reflexivity|]. rewrite IH. reflexivity.
Qed.

Lemma neighbors_f g k : neighbors (rename_graph g) (f k) = map f (neighbors g k).
Proof.
  unfold neighbors. induction g as [|[k' v] g IH]; [reflexivity|]. simpl. rewrite eqb_f.
  destruct (String.eqb k k'); [reflexivity|exact IH].
Qed.

Lemma gset_f (g : graph) k v : dset (rename_graph g) (f k) (map f v) = rename_graph (dset g k v).
Proof.
  induction g as [|[k' v'] g IH]; [reflexivity|]. simpl. rewrite eqb_f.
  destruct (String.eqb k k'); simpl; [reflexivity|]. rewrite IH. reflexivity.
Qed.

Lemma reverse_f g : reverse_graph (rename_graph g) = rename_graph (reverse_graph g).
Proof.
  unfold reverse_graph. change (@nil (string * list string)) with (rename_graph []) at 1.
  generalize (@nil (string * list string)) as acc.
  induction g as [|[k vs] g IH]; intros acc; [reflexivity|]. simpl. rewrite <- IH. f_equal.
  clear IH. revert acc. induction vs as [|v vs IH]; intros acc; [reflexivity|]. simpl. rewrite <- IH. f_equal.
  unfold add_rev. rewrite neighbors_f. change [f k] with (map f [k]). rewrite <- map_app. apply gset_f.
Qed.

Lemma deg_get_f d k : deg_get (rename_dict d) (f k) = deg_get d k.
Proof. unfold deg_get. rewrite dget_f. reflexivity. Qed.
Lemma deg_add_f d k n : deg_add (rename_dict d) (f k) n = rename_dict (deg_add d k n).
Proof. unfold deg_add. rewrite deg_get_f. apply dset_f. Qed.

Lemma in_degrees_f g : in_degrees (rename_graph g) = rename_dict (in_degrees g).
Proof.
  unfold in_degrees. change (@nil (string * Z)) with (@rename_dict Z []) at 1.
  generalize (@nil (string * Z)) as acc.
  induction g as [|[k vs] g IH]; intros acc; [reflexivity|]. simpl. rewrite <- IH. f_equal.
  clear IH. revert acc. induction vs as [|v vs IH]; intros acc; [reflexivity|]. simpl. rewrite <- IH. f_equal.
  apply deg_add_f.
Qed.

Lemma num_edges_f g : num_edges (rename_graph g) = num_edges g.
Proof.
  unfold num_edges. induction g as [|[k vs] g IH]; [reflexivity|]. simpl. rewrite map_length.
  f_equal. exact IH.
Qed.

Lemma mem_f k l : mem_str (f k) (map f l) = mem_str k l.
Proof. induction l as [|x l IH]; [reflexivity|]. simpl. rewrite eqb_f, IH. reflexivity. Qed.

Lemma filter_mem_f (p : string -> bool) (q : string -> bool) l :
  (forall x, p (f x) = q x) -> filter p (map f l) = map f (filter q l).
Proof.
  intros H. induction l as [|x l IH]; [reflexivity|]. simpl. rewrite H. destruct (q x); simpl; rewrite IH; reflexivity.
Qed.

Lemma dfs_f g n : forall stack vis,
  dfs (rename_graph g) n (map f stack) (map f vis) = rmap (map f) (dfs g n stack vis).
Proof.
  induction n as [|n IH]; intros [|x stack] vis; try reflexivity.
  cbn [map dfs]. rewrite mem_f. destruct (mem_str x vis); [apply IH|].
  rewrite neighbors_f. change [f x] with (map f [x]). rewrite <- map_app.
  rewrite (filter_mem_f _ (fun nb => negb (mem_str nb (vis ++ [x])))) by (intros y; rewrite mem_f; reflexivity).
  rewrite <- map_rev, <- map_app. apply IH.
Qed.

Lemma relax_f all nbs : forall (d : deg) q,
  fold_left (relax (map f all)) (map f nbs) (rename_dict d, map f q) =
  (let '(d', q') := fold_left (relax all) nbs (d, q) in (rename_dict d', map f q')).
Proof.
  induction nbs as [|x nbs IH]; intros d q; [reflexivity|]. cbn [map fold_left].
  unfold relax at 2 4. rewrite mem_f. destruct (mem_str x all); [|apply IH].
  rewrite deg_add_f, deg_get_f. destruct (deg_get (deg_add d x (-1)) x =? 0)%Z; [|apply IH].
  change [f x] with (map f [x]). rewrite <- map_app. apply IH.
Qed.

Lemma kahn_f g all n : forall q (d : deg) o,
  kahn (rename_graph g) (map f all) n (map f q) (rename_dict d) (map f o) = rmap (map f) (kahn g all n q d o).
Proof.
  induction n as [|n IH]; intros [|x q] d o; try reflexivity.
  cbn [map kahn]. rewrite neighbors_f, relax_f.
  destruct (fold_left (relax all) (neighbors g x) (d, q)) as [d' q'].
  change [f x] with (map f [x]). rewrite <- map_app. apply IH.
Qed.

Lemma kahn_ext g all n : forall q d o r, kahn g all n q d o = Ok r -> exists r', r = o ++ r'.
Proof.
  induction n as [|n IH]; intros [|x q] d o r H; cbn [kahn] in H; try discriminate.
  - injection H as <-. exists []. symmetry; apply app_nil_r.
  - injection H as <-. exists []. symmetry; apply app_nil_r.
  - destruct (fold_left (relax all) (neighbors g x) (d, q)) as [d' q']. apply IH in H as [r' ->].
    exists (x :: r'). rewrite <- app_assoc. reflexivity.
Qed.

Lemma last_map (l : list string) : l <> [] -> last (map f l) EmptyString = f (last l EmptyString).
Proof.
  induction l as [|x l IH]; [congruence|]. intros _. destruct l as [|y l]; [reflexivity|].
  exact (IH ltac:(discriminate)).
Qed.

Theorem resolve_rename g s e :
  resolve_connections (rename_graph g) (f s) (f e) =
  rmap (fun r => (map f (fst r), map f (snd r))) (resolve_connections g s e).
Proof.
  unfold resolve_connections, dfs_from. rewrite reverse_f, !num_edges_f.
  change [f s] with (map f [s]). change [f e] with (map f [e]).
  assert (E : forall g' k, dfs (rename_graph g') (2 + num_edges g') (map f [k]) [] =
                 rmap (map f) (dfs g' (2 + num_edges g') [k] [])) by (intros; apply dfs_f with (vis := [])).
  rewrite !E. destruct (dfs g (2 + num_edges g) [s] []) as [r1|]; [|reflexivity]. cbn [rmap rbind].
  destruct (dfs (reverse_graph g) _ [e] []) as [r2|]; [|reflexivity]. cbn [rmap rbind].
  rewrite (filter_mem_f _ (fun v => mem_str v r2)) by (intros; apply mem_f).
  rewrite in_degrees_f. assert (K := kahn_f g (filter (fun v => mem_str v r2) r1) (2 + num_edges g) [s] (in_degrees g) []).
  simpl (map f []) in K. rewrite K. clear K.
  destruct (kahn g _ (2 + num_edges g) [s] (in_degrees g) []) as [o|] eqn:Ek; [|reflexivity]. cbn [rmap rbind].
  assert (Ho : exists o', o = s :: o').
  { change (2 + num_edges g) with (S (S (num_edges g))) in Ek. remember (S (num_edges g)) as n. cbn [kahn] in Ek. destruct (fold_left _ (neighbors g s) _) as [d' q'].
    apply kahn_ext in Ek as [o' ->]. exists o'. reflexivity. }
  destruct Ho as [o' ->]. unfold validate_resolution. rewrite !map_length.
  destruct (negb _); [reflexivity|]. cbn [map hd]. rewrite eqb_f. destruct (negb _); [reflexivity|].
  change (f s :: map f o') with (map f (s :: o')). rewrite last_map by discriminate. rewrite eqb_f.
  destruct (negb _); reflexivity.
Qed.
End Rename.
