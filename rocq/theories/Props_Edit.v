(** C33 and C34: editing and combining models. *)
From Coq Require Import ZArith.
From Verif Require Import Base TreeUtil NonSeqSpec BatchSpec Edit EditSpec EditProofs.
Local Open Scope list_scope.
Local Open Scope string_scope.

(** inserting, into every kind of container, at every index (a new key for dictionaries) *)
Theorem C33_insert {M} : forall uuid (h : heap M) m i (x : item M) key,
  ref m < length h -> wf_cont (hget h (ref m)) -> kind_of (hget h (ref m)) <> KOther ->
  (forall k, new_name (hget h (ref m)) uuid key = Some k -> ~ In (Some k) (map fst (entries (hget h (ref m))))) ->
  exists h' m', run uuid h m (Insert i x key) = (h', m', Ok None) /\
    kind_of (hget h' (ref m')) = kind_of (hget h (ref m)) /\ wf_cont (hget h' (ref m')) /\
    inserted i (new_name (hget h (ref m)) uuid key, x) (entries (hget h (ref m))) (entries (hget h' (ref m'))).
Proof. exact insert_spec. Qed.
Theorem C33_prepend {M} : forall uuid (h : heap M) m (x : item M) key,
  ref m < length h -> wf_cont (hget h (ref m)) -> kind_of (hget h (ref m)) <> KOther ->
  (forall k, new_name (hget h (ref m)) uuid key = Some k -> ~ In (Some k) (map fst (entries (hget h (ref m))))) ->
  exists h' m', run uuid h m (Prepend x key) = (h', m', Ok None) /\
    kind_of (hget h' (ref m')) = kind_of (hget h (ref m)) /\
    entries (hget h' (ref m')) = (new_name (hget h (ref m)) uuid key, x) :: entries (hget h (ref m)).
Proof. exact prepend_spec. Qed.
(** appending: at the end, when every entry holds at least one module *)
Theorem C33_append {M} : forall uuid (h : heap M) m (x : item M) key,
  ref m < length h -> wf_cont (hget h (ref m)) -> kind_of (hget h (ref m)) <> KOther ->
  (forall k, new_name (hget h (ref m)) uuid key = Some k -> ~ In (Some k) (map fst (entries (hget h (ref m))))) ->
  Forall (fun e => populated (snd e)) (entries (hget h (ref m))) ->
  exists h' m', run uuid h m (Append x key) = (h', m', Ok None) /\
    kind_of (hget h' (ref m')) = kind_of (hget h (ref m)) /\
    entries (hget h' (ref m')) = (entries (hget h (ref m)) ++ [(new_name (hget h (ref m)) uuid key, x)])%list.
Proof. exact append_spec. Qed.
(** popping by index: removes and returns that entry; tuples not with index -1 *)
Theorem C33_pop {M} : forall uuid (h : heap M) m i,
  ref m < length h -> wf_cont (hget h (ref m)) -> kind_of (hget h (ref m)) <> KOther ->
  in_range i (entries (hget h (ref m))) -> (kind_of (hget h (ref m)) = KTup -> i <> -1)%Z ->
  exists h' m' x name, run uuid h m (PopIdx i) = (h', m', Ok (Some x)) /\
    kind_of (hget h' (ref m')) = kind_of (hget h (ref m)) /\ wf_cont (hget h' (ref m')) /\
    removed i (name, x) (entries (hget h (ref m))) (entries (hget h' (ref m'))).
Proof. exact (fun uuid h m i => pop_spec h m i). Qed.
Theorem C33_pop_out_of_range {M} : forall uuid (h : heap M) m i, kind_of (hget h (ref m)) <> KOther ->
  ~ in_range i (entries (hget h (ref m))) -> run uuid h m (PopIdx i) = (h, mk_model (ref m) false, Err IndexError).
Proof. exact (fun uuid h m i => pop_out_of_range h m i). Qed.
Theorem C33_pop_key {M} : forall uuid (h : heap M) m d k x,
  ref m < length h -> hget h (ref m) = CDict d -> NoDup (dkeys d) -> dget d k = Some x ->
  exists h' m' a b, run uuid h m (PopKey k) = (h', m', Ok (Some x)) /\ d = (a ++ (k, x) :: b)%list /\ hget h' (ref m') = CDict (a ++ b).
Proof. exact pop_key_spec. Qed.
Theorem C33_replace_index {M} : forall uuid (h : heap M) m l i (x : item M),
  ref m < length h -> hget h (ref m) = CList l -> in_range i l ->
  exists h' m' l', run uuid h m (SetIdx i x) = (h', m', Ok None) /\ hget h' (ref m') = CList l' /\ replaced i x l l'.
Proof. exact set_idx_spec. Qed.
Theorem C33_replace_key {M} : forall uuid (h : heap M) m d k y (x : item M),
  ref m < length h -> hget h (ref m) = CDict d -> NoDup (dkeys d) -> dget d k = Some y ->
  exists h' m' a b, run uuid h m (SetKey k x) = (h', m', Ok None) /\ d = (a ++ (k, y) :: b)%list /\ hget h' (ref m') = CDict (a ++ (k, x) :: b).
Proof. exact set_key_spec. Qed.
(** every operation, also a failing one, leaves the model not compiled and other
    containers alone; a failing one leaves the modules as they were *)
Theorem C33_frame {M} : forall uuid (h : heap M) m o h' m' res, ref m < length h -> run uuid h m o = (h', m', res) ->
  compiled m' = false /\ ref m' < length h' /\
  (forall r, r < length h -> r <> ref m -> hget h' r = hget h r) /\
  (forall e, res = Err e -> h' = h /\ ref m' = ref m).
Proof. exact run_frame. Qed.
Theorem C33_history {M} : forall uuids os (h : heap M) m, ref m < length h -> os <> [] -> compiled (snd (runs uuids h m os)) = false.
Proof. exact runs_not_compiled. Qed.

Definition ex_list : heap nat := [CList [Leaf 1; Lst [Leaf 2; Leaf 3]; Leaf 4]].
Definition ex_tup : heap nat := [CTup [Leaf 1; Leaf 2; Leaf 3]].
Definition ex_dict : heap nat := [CDict [("b", Leaf 1); ("a", Leaf 2)]].
Example C33_ex_insert :
  (let '(h, m, _) := run "id" ex_list (mk_model 0 true) (Insert (-1) (Leaf 9) None) in hget h (ref m)) = CList [Leaf 1; Lst [Leaf 2; Leaf 3]; Leaf 9; Leaf 4] /\
  (let '(h, m, _) := run "id" ex_tup (mk_model 0 true) (Insert 1 (Leaf 9) None) in hget h (ref m)) = CTup [Leaf 1; Leaf 9; Leaf 2; Leaf 3] /\
  (let '(h, m, _) := run "id" ex_dict (mk_model 0 true) (Insert 1 (Leaf 9) None) in hget h (ref m)) = CDict [("b", Leaf 1); ("id", Leaf 9); ("a", Leaf 2)].
Proof. repeat split; vm_compute; reflexivity. Qed.
Example C33_ex_hyps : wf_cont (hget ex_dict 0) /\ kind_of (hget ex_dict 0) <> KOther /\ 0 < length ex_dict /\
  (forall k, new_name (hget ex_dict 0) "id" None = Some k -> ~ In (Some k) (map fst (entries (hget ex_dict 0)))) /\
  Forall (fun e => populated (snd e)) (entries (hget ex_dict 0)) /\ in_range (-2) (entries (hget ex_dict 0)).
Proof.
  split. { cbn. repeat constructor; cbn; intuition discriminate. } split; [discriminate|]. split; [cbn; lia|].
  split. { cbn. intros k E. injection E as <-. intuition discriminate. } split. { apply Forall_cons; [exists 1; apply hl_leaf|]. apply Forall_cons; [exists 2; apply hl_leaf|constructor]. } unfold in_range. cbn. lia.
Qed.
Example C33_ex_pop :
  run "id" ex_tup (mk_model 0 true) (PopIdx (-3)) = (ex_tup ++ [CTup [Leaf 2; Leaf 3]], mk_model 1 false, Ok (Some (Leaf 1)))%list /\
  run "id" ex_dict (mk_model 0 true) (PopKey "b") = ([CDict [("a", Leaf 2)]], mk_model 0 false, Ok (Some (Leaf 1))) /\
  run "id" ex_tup (mk_model 0 true) (PopIdx 3) = (ex_tup, mk_model 0 false, Err IndexError).
Proof. repeat split; vm_compute; reflexivity. Qed.
Example C33_ex_history : runs (fun n => "id") ex_list (mk_model 0 true) [Append (Leaf 7) None; PopIdx 0; SetIdx 0 (Leaf 8)] =
  ([CList [Leaf 8; Leaf 4; Leaf 7]], mk_model 0 false).
Proof. vm_compute. reflexivity. Qed.

(** popping the last module of a tuple with index -1 duplicates the others instead *)
Theorem C33_tuple_pop_last_refuted : exists (h : heap nat) m, compiled m = true /\ hget h (ref m) = CTup [Leaf 1; Leaf 2] /\
  exists h' m', run "id" h m (PopIdx (-1)) = (h', m', Ok (Some (Leaf 2))) /\ hget h' (ref m') = CTup [Leaf 1; Leaf 1; Leaf 2].
Proof. exists [CTup [Leaf 1; Leaf 2]], (mk_model 0 true). split; [reflexivity|]. split; [reflexivity|]. eexists _, _. split; vm_compute; reflexivity. Qed.
(** and this is so for every tuple: the entries become all but the last, then all *)
Theorem C33_tuple_pop_last_always {M} : forall uuid (h : heap M) m l x, hget h (ref m) = CTup (l ++ [x]) ->
  exists h' m', run uuid h m (PopIdx (-1)) = (h', m', Ok (Some x)) /\ hget h' (ref m') = CTup (l ++ l ++ [x]).
Proof.
  intros uuid h m l x E. cbn [run]. unfold pop_index. rewrite E.
  assert (Ei : index (l ++ [x]) (-1) = Ok (length l)).
  { unfold index. rewrite app_length. cbn [length]. replace (-1 <? 0)%Z with true by reflexivity.
    replace (_ && _)%bool with true; [f_equal; lia|]. symmetry. apply andb_true_intro. rewrite Z.leb_le, Z.ltb_lt. lia. }
  unfold py_get. rewrite Ei. cbn [rbind]. rewrite nth_error_app2 by lia. rewrite Nat.sub_diag. cbn [nth_error halloc].
  eexists _, _. split; [reflexivity|]. cbn [ref].
  pose proof (hget_alloc h (CTup (slice_to (l ++ [x]) (-1) ++ slice_from (l ++ [x]) (-1 + 1)))) as G. cbn [halloc fst snd] in G. rewrite G. f_equal.
  unfold slice_to, slice_from, cut. rewrite app_length. cbn [length]. replace (-1 <? 0)%Z with true by reflexivity. replace (-1 + 1 <? 0)%Z with false by reflexivity.
  replace (Z.to_nat (Z.of_nat (length l + 1) + -1)) with (length l + 0) by lia. rewrite firstn_app_2. cbn [firstn]. rewrite app_nil_r.
  replace (Nat.min (length l + 1) (Z.to_nat (-1 + 1))) with 0 by (cbn; lia). reflexivity.
Qed.
(** a module of a tuple cannot be replaced, although the method has a branch for it *)
Theorem C33_tuple_replace_refuted : exists (h : heap nat) m i, hget h (ref m) = CTup [Leaf 1; Leaf 2] /\ in_range i [1; 2] /\
  run "id" h m (SetIdx i (Leaf 9)) = (h, mk_model (ref m) false, Err TypeError).
Proof. exists [CTup [Leaf 1; Leaf 2]], (mk_model 0 true), 1%Z. split; [reflexivity|]. split; [unfold in_range; cbn; lia|reflexivity]. Qed.
Theorem C33_tuple_replace_always {M} : forall uuid (h : heap M) m l i x, hget h (ref m) = CTup l ->
  run uuid h m (SetIdx i x) = (h, mk_model (ref m) false, Err TypeError).
Proof. intros uuid h m l i x E. cbn [run]. rewrite E. reflexivity. Qed.
(** inserting under a key that exists later drops the new module silently *)
Theorem C33_insert_existing_key_refuted : exists (h : heap nat) m, hget h (ref m) = CDict [("a", Leaf 1); ("b", Leaf 2)] /\
  exists h' m', run "id" h m (Insert 0 (Leaf 9) (Some "b")) = (h', m', Ok None) /\ hget h' (ref m') = CDict [("b", Leaf 2); ("a", Leaf 1)].
Proof. exists [CDict [("a", Leaf 1); ("b", Leaf 2)]], (mk_model 0 true). split; [reflexivity|]. eexists _, _. split; vm_compute; reflexivity. Qed.
(** appending counts modules, not entries: an empty container puts the module before the end *)
Theorem C33_append_refuted : exists (h : heap nat) m, hget h (ref m) = CList [Lst []; Leaf 1] /\
  exists h' m', run "id" h m (Append (Leaf 9) None) = (h', m', Ok None) /\ hget h' (ref m') = CList [Lst []; Leaf 9; Leaf 1].
Proof. exists [CList [Lst []; Leaf 1]], (mk_model 0 true). split; [reflexivity|]. eexists _, _. split; vm_compute; reflexivity. Qed.
(** a module appended to a dictionary need not run last: modules run in the order of their keys *)
Theorem C33_dict_append_order_refuted : exists (h : heap nat) m, leaves (to_tree (hget h (ref m))) = [1; 2] /\
  exists h' m', run "0f3c" h m (Append (Leaf 9) None) = (h', m', Ok None) /\ leaves (to_tree (hget h' (ref m'))) = [9; 1; 2].
Proof. exists [CDict [("a", Leaf 1); ("b", Leaf 2)]], (mk_model 0 true). split; [reflexivity|]. eexists _, _. split; vm_compute; reflexivity. Qed.

(** models with a tuple or dictionary of modules: the sum is a new model and the operands keep theirs *)
Theorem C34_add_partial {M} : forall uuid (h : heap M) a (other : item M) h' s, ref a < length h -> wf_cont (hget h (ref a)) ->
  kind_of (hget h (ref a)) = KTup \/ kind_of (hget h (ref a)) = KDict ->
  (forall k, new_name (hget h (ref a)) uuid None = Some k -> ~ In (Some k) (map fst (entries (hget h (ref a))))) ->
  Forall (fun e => populated (snd e)) (entries (hget h (ref a))) ->
  add uuid h a other = (h', s) ->
  (forall r, r < length h -> hget h' r = hget h r) /\ ref s <> ref a /\ compiled s = false /\
  kind_of (hget h' (ref s)) = kind_of (hget h (ref a)) /\
  entries (hget h' (ref s)) = (entries (hget h (ref a)) ++ [(new_name (hget h (ref a)) uuid None, other)])%list.
Proof. exact add_spec. Qed.
Example C34_ex : add "id" ex_tup (mk_model 0 true) (Lst [Leaf 7]) =
  ([CTup [Leaf 1; Leaf 2; Leaf 3]; CTup [Leaf 1; Leaf 2; Leaf 3; Lst [Leaf 7]]], mk_model 1 false).
Proof. vm_compute. reflexivity. Qed.

(** models with a list of modules: the left operand itself is changed while it
    still counts as compiled, and the sum shares its container *)
Theorem C34_list_refuted : exists (h : heap nat) a, compiled a = true /\ hget h (ref a) = CList [Leaf 1] /\
  exists h' s, add "id" h a (Leaf 2) = (h', s) /\ ref s = ref a /\ hget h' (ref a) = CList [Leaf 1; Leaf 2].
Proof. exists [CList [Leaf 1]], (mk_model 0 true). split; [reflexivity|]. split; [reflexivity|]. eexists _, _. split; [reflexivity|]. split; vm_compute; reflexivity. Qed.
(** it is so for every list of modules *)
Theorem C34_list_always {M} : forall uuid (h : heap M) a l (other : item M) h' s, ref a < length h -> hget h (ref a) = CList l ->
  Forall populated l -> add uuid h a other = (h', s) -> ref s = ref a /\ hget h' (ref a) = CList (l ++ [other]).
Proof.
  intros uuid h a l other h' s Hr E Hp G. unfold add in G. cbn [run] in G. unfold insert_module in G. cbn [ref] in G. rewrite E in G. injection G as <- <-.
  cbn [ref]. split; [reflexivity|]. rewrite hget_set by exact Hr. f_equal. cbn [to_tree leaves].
  pose proof (leaves_count l Hp) as HL. unfold py_insert, cut. destruct (Z.ltb_spec (Z.of_nat (length (concat (map leaves l)))) 0) as [|_]; [lia|].
  rewrite Nat2Z.id, Nat.min_l by exact HL. rewrite firstn_all, skipn_all. reflexivity.
Qed.
(** the sum of models in a dictionary can run the second operand first *)
Theorem C34_order_refuted : exists (h : heap nat) a, leaves (to_tree (hget h (ref a))) = [1] /\
  exists h' s, add "0f3c" h a (Leaf 2) = (h', s) /\ leaves (to_tree (hget h' (ref s))) = [2; 1].
Proof. exists [CDict [("a", Leaf 1)]], (mk_model 0 true). split; [reflexivity|]. eexists _, _. split; vm_compute; reflexivity. Qed.

Print Assumptions C33_insert. Print Assumptions C33_prepend. Print Assumptions C33_append. Print Assumptions C33_pop. Print Assumptions C33_pop_out_of_range.
Print Assumptions C33_pop_key. Print Assumptions C33_replace_index. Print Assumptions C33_replace_key. Print Assumptions C33_frame. Print Assumptions C33_history.
Print Assumptions C33_tuple_pop_last_refuted. Print Assumptions C33_tuple_pop_last_always. Print Assumptions C34_add_partial. Print Assumptions C34_list_refuted. Print Assumptions C34_list_always.
