(** Properties C21-C24: batching and shuffling. *)
From Coq Require Import Permutation.
From Verif Require Import Base BaseLemmas TreeUtil TreeSpec NonSeqSpec Batch BatchSpec BatchProofs.
Local Open Scope string_scope.
Local Open Scope list_scope.

(* ------------------------------------------------------------------ *)
(** C21: for a function that treats samples one by one, batched evaluation is
    evaluation, whatever the batch size.  With recompilation avoidance this
    needs arrays of at least two axes. *)
Theorem C21_batching_transparent :
  forall S O St (fn : tree (list S) -> St -> result (tree (list O) * St)) (scalar_row : S -> bool)
         inl outl g n max avoid X st,
  samplewise fn inl outl g -> layout X = inl -> populated X -> uniform n X -> max <> Some 0 ->
  (avoid = true -> forall x r, has_leaf X x -> In r x -> scalar_row r = false) ->
  autobatch fn scalar_row max avoid X st = fn X st.
Proof.
  exact (fun S O St fn sr inl outl g n max avoid X st Hsw HL Hp Hu =>
    @autobatch_samplewise S O St fn sr inl outl g n max avoid X st Hsw HL (populated_first X n Hp Hu) Hu).
Qed.

(** Samples of an array with one axis cannot be taken apart with [x[j][None, :]]:
    a samplewise function fails on 3 samples in batches of 2. *)
Definition double (X : tree (list nat)) (st : nat) : result (tree (list nat) * nat) :=
  Ok (tmap (map (fun r => 2 * r)) X, st).
Theorem C21_one_axis_refuted :
  exists (X : tree (list nat)) (g : nat -> tree (option nat) -> tree (option nat)),
    samplewise double (Leaf tt) (Leaf tt) g /\ layout X = Leaf tt /\ populated X /\ uniform 3 X /\
    is_ok (double X 0) = true /\ autobatch double (fun _ => true) (Some 2) true X 0 = Err IndexError.
Proof.
  exists (Leaf [5; 6; 7]), (fun _ => tmap (option_map (fun r => 2 * r))).
  split; [|split; [reflexivity|split; [exists [5; 6; 7]; constructor|split; [|split; reflexivity]]]].
  - intros n st X Hn HL Hu. destruct X as [x| | | |]; try discriminate HL. eexists. split; [reflexivity|]. split; [reflexivity|].
    assert (Hx : length x = n) by (apply Hu; constructor). split.
    + intros y Hy. inversion Hy; subst. apply map_length.
    + intros i Hi. cbn. rewrite nth_error_map. reflexivity.
  - intros x Hx. inversion Hx. reflexivity.
Qed.

(** an example with two arrays of two axes (a row is a list) and all three
    divisibility cases *)
Definition rowsum (X : tree (list (list nat))) (st : nat) : result (tree (list (list nat)) * nat) :=
  Ok (tmap (map (fun r => [list_sum r; st])) X, st).
Definition bX : tree (list (list nat)) :=
  Dict [("a", Leaf [[1; 2]; [3; 4]; [5; 6]; [7; 8]; [9; 10]]); ("b", Leaf [[1]; [2]; [3]; [4]; [5]])].
Example C21_example_samplewise :
  samplewise rowsum (layout bX) (layout bX) (fun st => tmap (option_map (fun r => [list_sum r; st]))).
Proof.
  intros n st X Hn HL Hu. eexists. split; [reflexivity|]. rewrite layout_tmap. split; [exact HL|]. split.
  - intros x Hx. apply has_leaf_tmap in Hx as (y & Hy & ->). rewrite map_length. apply Hu. exact Hy.
  - intros i Hi. unfold sample. rewrite !tmap_tmap. apply tmap_ext. intros x _. apply nth_error_map.
Qed.
Example C21_example_data : populated bX /\ uniform 5 bX.
Proof.
  split.
  - eexists. eapply (hl_dict _ "a"); [left; reflexivity|constructor].
  - intros x Hx. inversion Hx as [|d k t y Hi Hl| |]; subst. destruct Hi as [E|[E|[]]]; injection E as <- <-; inversion Hl; reflexivity.
Qed.
Example C21_example_result :
  map (fun m => autobatch rowsum (fun _ => false) (Some m) true bX 9) [1; 2; 3; 4; 5; 6]
  = repeat (rowsum bX 9) 6 /\
  map (fun m => autobatch rowsum (fun _ => false) (Some m) false bX 9) [1; 2; 3; 4; 5; 6]
  = repeat (rowsum bX 9) 6.
Proof. split; vm_compute; reflexivity. Qed.

(* ------------------------------------------------------------------ *)
(** C22: batched evaluation is the function run on consecutive slices of at most
    the maximum size, covering the rows in order, with the state handed on, and
    the outputs one after the other.  Up to the maximum size it is one call. *)
Theorem C22_state_threaded :
  forall S O St (fn : tree (list S) -> St -> result (tree (list O) * St)) (scalar_row : S -> bool)
         n m avoid X st,
  populated X -> uniform n X -> 1 <= m -> m < n ->
  (avoid = true -> forall x r, has_leaf X x -> In r x -> scalar_row r = false) ->
  exists sizes,
    list_sum sizes = n /\ Forall (fun s => 1 <= s <= m) sizes /\
    (forall Y st', autobatch fn scalar_row (Some m) avoid X st = Ok (Y, st') ->
       exists outs, threaded fn (slices 0 sizes X) st outs st' /\ joined outs Y) /\
    (forall Y st' outs, threaded fn (slices 0 sizes X) st outs st' -> joined outs Y -> wf_tree Y ->
       autobatch fn scalar_row (Some m) avoid X st = Ok (Y, st')).
Proof.
  exact (fun S O St fn sr n m avoid X st Hp Hu H1 H2 Hs =>
    ex_intro _ (sizes_of n m avoid)
      (conj (sizes_of_sum n m avoid H1) (conj (sizes_of_bounds n m avoid H1)
        (conj
          (fun Y st' H =>
             match proj1 (@autobatch_iff S O St fn sr n m avoid X st Y st' (populated_first X n Hp Hu) Hu H1 H2 Hs) H with
             | ex_intro _ outs (conj Ht Hc) => ex_intro _ outs (conj Ht (concatenate_joined outs Y Hc))
             end)
          (fun Y st' outs Ht Hj Hwf =>
             proj2 (@autobatch_iff S O St fn sr n m avoid X st Y st' (populated_first X n Hp Hu) Hu H1 H2 Hs)
               (ex_intro _ outs (conj Ht (joined_concatenate outs Y
                  (fun E : outs = [] =>
                     @slices_outs_nonempty S O St fn n m avoid X st outs st' H1 H2 Ht E) Hwf Hj)))))))).
Qed.

Theorem C22_single_call :
  forall S O St (fn : tree (list S) -> St -> result (tree (list O) * St)) (scalar_row : S -> bool)
         n max avoid X st,
  populated X -> uniform n X -> (forall m, max = Some m -> n <= m) ->
  autobatch fn scalar_row max avoid X st = fn X st.
Proof.
  exact (fun S O St fn sr n max avoid X st Hp Hu Hm =>
    @autobatch_small S O St fn sr n max avoid X st (populated_first X n Hp Hu) Hm).
Qed.

(** a running sum kept in the state *)
Definition runsum (X : tree (list (list nat))) (st : nat) : result (tree (list (list nat)) * nat) :=
  let t := list_sum (map list_sum (concat (leaves X))) in
  Ok (tmap (map (fun _ => [st + t])) X, st + t).
Example C22_example :
  autobatch runsum (fun _ => false) (Some 2) false bX 0
  = Ok (Dict [("a", Leaf [[13]; [13]; [46]; [46]; [70]]); ("b", Leaf [[13]; [13]; [46]; [46]; [70]])], 70) /\
  autobatch runsum (fun _ => false) (Some 3) true bX 0
  = Ok (Dict [("a", Leaf [[27]; [27]; [27]; [46]; [70]]); ("b", Leaf [[27]; [27]; [27]; [46]; [70]])], 70).
Proof. split; vm_compute; reflexivity. Qed.
Example C22_example_slices :
  slices 0 [2; 2; 1] bX =
  [Dict [("a", Leaf [[1; 2]; [3; 4]]); ("b", Leaf [[1]; [2]])];
   Dict [("a", Leaf [[5; 6]; [7; 8]]); ("b", Leaf [[3]; [4]])];
   Dict [("a", Leaf [[9; 10]]); ("b", Leaf [[5]])]].
Proof. reflexivity. Qed.

(* ------------------------------------------------------------------ *)
(** C23: splitting is lossless for batch sizes between 1 and the number of rows. *)
Theorem C23_split_lossless :
  forall S (t : tree (list S)) n size,
  populated t -> uniform n t -> 1 <= size -> size <= n ->
  exists parts remainder pieces,
    pytree_split t size = Ok (parts, remainder) /\
    length pieces = n / size /\
    (forall j p, nth_error pieces j = Some p ->
       uniform size p /\ tmap (fun x => nth_error x j) parts = tmap Some p) /\
    (match remainder with
     | Some r => 1 <= n mod size /\ uniform (n mod size) r /\ joined (pieces ++ [r]) t
     | None => n mod size = 0 /\ joined pieces t
     end).
Proof. exact (@split_lossless). Qed.

(** A batch size above the number of rows is an error instead of one short
    remainder. *)
Theorem C23_oversized_batch_refuted :
  exists (t : tree (list nat)) size, populated t /\ uniform 3 t /\ 1 <= size /\ pytree_split t size = Err TypeError.
Proof.
  exists (Leaf [5; 6; 7]), 4. split; [eexists; constructor|]. split; [|split; [auto|reflexivity]].
  intros x Hx. inversion Hx. reflexivity.
Qed.
Example C23_example :
  pytree_split bX 2 = Ok (Dict [("a", Leaf [[[1; 2]; [3; 4]]; [[5; 6]; [7; 8]]]); ("b", Leaf [[[1]; [2]]; [[3]; [4]]])],
                          Some (Dict [("a", Leaf [[9; 10]]); ("b", Leaf [[5]])])).
Proof. vm_compute. reflexivity. Qed.

(* ------------------------------------------------------------------ *)
(** C24: shuffling inputs, targets and uncertainties with one key keeps the
    samples together: the (x, y, u) triples are the old ones, each as often. *)
Theorem C24_shuffle_aligned :
  forall Rng S1 S2 S3 (perm : Rng -> nat -> list nat) split_rng n key
         (X X' : tree (list S1)) (Y Y' : tree (list S2)) (U U' : tree (list S3)),
  Permutation (perm key n) (seq 0 n) -> uniform n X -> uniform n Y -> uniform n U ->
  random_permute_leaves perm split_rng X key false = Ok X' ->
  random_permute_leaves perm split_rng Y key false = Ok Y' ->
  random_permute_leaves perm split_rng U key false = Ok U' ->
  layout X' = layout X /\ layout Y' = layout Y /\ layout U' = layout U /\
  uniform n X' /\ uniform n Y' /\ uniform n U' /\
  Permutation (map (fun i => (sample X' i, sample Y' i, sample U' i)) (seq 0 n))
              (map (fun i => (sample X i, sample Y i, sample U i)) (seq 0 n)).
Proof. exact (@shuffle_aligned). Qed.

(** shuffling never fails with one key for all leaves *)
Theorem C24_shuffle_total :
  forall Rng S (perm : Rng -> nat -> list nat) split_rng key (X : tree (list S)),
  exists X', random_permute_leaves perm split_rng X key false = Ok X'.
Proof. exact (@shuffle_total). Qed.

Definition rot (key n : nat) : list nat := skipn key (seq 0 n) ++ firstn key (seq 0 n).
Example C24_example_perm : Permutation (rot 2 5) (seq 0 5).
Proof. unfold rot. etransitivity; [apply Permutation_app_comm|]. rewrite firstn_skipn. reflexivity. Qed.
Example C24_example :
  random_permute_leaves rot (fun k n => seq k n) bX 2 false
  = Ok (Dict [("a", Leaf [[5; 6]; [7; 8]; [9; 10]; [1; 2]; [3; 4]]); ("b", Leaf [[3]; [4]; [5]; [1]; [2]])]).
Proof. vm_compute. reflexivity. Qed.
(** with independent leaves the samples do not stay together *)
Example C24_independent_leaves :
  random_permute_leaves rot (fun k n => seq k n) bX 2 true
  = Ok (Dict [("a", Leaf [[5; 6]; [7; 8]; [9; 10]; [1; 2]; [3; 4]]); ("b", Leaf [[4]; [5]; [1]; [2]; [3]])]).
Proof. vm_compute. reflexivity. Qed.

Print Assumptions C21_batching_transparent.
Print Assumptions C21_one_axis_refuted.
Print Assumptions C22_state_threaded.
Print Assumptions C22_single_call.
Print Assumptions C23_split_lossless.
Print Assumptions C23_oversized_batch_refuted.
Print Assumptions C24_shuffle_aligned.
Print Assumptions C24_shuffle_total.
