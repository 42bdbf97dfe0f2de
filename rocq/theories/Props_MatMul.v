(** C52: MatMul modules compute matrix products. *)
From Coq Require Import ZArith Ring_theory ZArithRing.
From Verif Require Import Base TreeUtil TreeSpec Seq SerialSpec NdArray Einsum MatMul MatMulSpec MatMulCore MatMulMain MatMulFinal.
Local Open Scope string_scope.
Local Open Scope list_scope.
Local Open Scope nat_scope.

(** Over any semiring, every sample of the output of a compiled module is the
    product of the chosen operands: the parameter matrix (given, or drawn at
    compile) and the arrays of the sample, from left to right in the order of
    path_order, or else the parameters followed by the leaves.  At most 25
    operands; if there is a path_order, no dictionary of the data has a key of
    digits and no path ends with the separator. *)
Theorem C52_matrix_product : forall (V : Type) (zero one : V) (add mul : V -> V -> V),
  semi_ring_theory zero one add mul eq ->
  forall (m : matmul V) normal sh data p r,
  wf_tree sh -> leaves sh <> [] -> trel (fun s d => exists n, shp d = n :: s) sh data ->
  length (leaves sh) + (if mm_train m || match mm_par m with Some _ => true | None => false end then 1 else 0) <= 25 ->
  (forall ps, mm_order m = Some ps -> named_dicts data /\ forall q, In q ps -> q <> String (mm_sep m) (String (mm_sep m) "") -> full_path (mm_sep m) q) ->
  matmul_run zero one add mul m normal sh data = Ok (p, r) ->
  exists par, p = match par with Some a => OnePar a | None => NoPars end /\
    match mm_par m with Some a => par = Some a | None => if mm_train m then exists s, par = Some (normal s) else par = None end /\
    forall beta x, beta < hd 0 (shp r) -> trel (sample_of zero beta) data x ->
    exists ops a, chosen (mm_sep m) (mm_order m) par x ops /\ compatible ops /\ is_product zero add mul ops a /\ (exists n, shp r = n :: shp a) /\
       forall idx, valid (shp a) idx -> cell zero r (beta :: idx) = cell zero a idx.
Proof. exact (fun V => @matmul_product V). Qed.

(** The product of the specification does not depend on the bracketing. *)
Theorem C52_product_associative : forall (V : Type) (zero one : V) (add mul : V -> V -> V),
  semi_ring_theory zero one add mul eq ->
  forall (l1 l2 : list (arr V)) a i j, l2 <> [] ->
  product zero add mul (l1 ++ a :: l2) i j = total zero add (fun k => mul (product zero add mul (l1 ++ [a]) i k) (product zero add mul l2 k j)) (cols a).
Proof. 
  intros V zero one add mul SR l1 l2 a i j H. replace (l1 ++ a :: l2) with ((l1 ++ [a]) ++ l2) by (rewrite <- app_assoc; reflexivity).
  apply (product_app zero one add mul SR); [destruct l1; discriminate|exact H|]. rewrite app_length. cbn. rewrite Nat.add_sub. rewrite nth_error_app2, Nat.sub_diag by lia. reflexivity.
Qed.

Definition C52_A : arr Z := mk_arr [2; 2] [1; 2; 3; 4]%Z.
Definition C52_data : tree (arr Z) := Dict [("v", Leaf (mk_arr [2; 2] [1; 0; 0; 1]%Z)); ("B", Leaf (mk_arr [2; 2; 2] [0; 1; 1; 0; 1; 1; 0; 1]%Z))].
Definition C52_shapes : tree (list nat) := Dict [("v", Leaf [2]); ("B", Leaf [2; 2])].
Definition C52_module : matmul Z := mk_matmul (Some C52_A) true None (Some ["B"; ".."; "v"]) "."%char.
Example C52_example :
  matmul_run 0%Z 1%Z Z.add Z.mul C52_module (fun s => mk_arr s []) C52_shapes C52_data = Ok (OnePar C52_A, mk_arr [2; 2] [3; 1; 6; 4]%Z).
Proof. vm_compute. reflexivity. Qed.
Lemma C52_semiring : semi_ring_theory 0%Z 1%Z Z.add Z.mul eq.
Proof. constructor; intros; ring. Qed.
Example C52_example_hyps :
  wf_tree C52_shapes /\ leaves C52_shapes <> [] /\ trel (fun s d => exists n, shp d = n :: s) C52_shapes C52_data /\
  named_dicts C52_data /\ (forall q, In q ["B"; ".."; "v"] -> q <> ".." -> full_path "."%char q) /\
  trel (sample_of 0%Z 1) C52_data (Dict [("v", Leaf (mk_arr [2] [0; 1]%Z)); ("B", Leaf (mk_arr [2; 2] [1; 1; 0; 1]%Z))]).
Proof.
  split; [|split; [|split; [|split; [|split]]]].
  - repeat constructor; cbn; intuition discriminate.
  - discriminate.
  - econstructor; [reflexivity|]. repeat constructor; eexists; reflexivity.
  - intros ks e k v Hw Hg. destruct ks as [|k0 ks].
    + injection Hw as <-. cbn in Hg. destruct (String.eqb_spec k "v") as [ -> |]; [reflexivity|]. destruct (String.eqb_spec k "B") as [ -> |]; [reflexivity|discriminate].
    + cbn in Hw. destruct (k0 =? "v")%string; [destruct ks; discriminate|]. destruct (k0 =? "B")%string; [destruct ks; discriminate|discriminate].
  - intros q [ <- |[ <- |[ <- |[]]]] Hq; [discriminate|congruence|discriminate].
  - assert (T : forall (d x : arr Z), (exists n, shp d = n :: shp x) -> forallb (fun i => Z.eqb (cell 0%Z x i) (cell 0%Z d (1 :: i))) (map (unravel (shp x)) (seq 0 (prod (shp x)))) = true -> sample_of 0%Z 1 d x).
    { intros d x H1 H2. split; [exact H1|]. intros idx Hv. rewrite forallb_forall in H2. apply Z.eqb_eq, H2. apply in_map_iff. exists (ravel (shp x) idx). split; [apply unravel_ravel; exact Hv|].
      apply in_seq. split; [lia|]. apply ravel_bound. exact Hv. }
    econstructor; [reflexivity|]. constructor; [split; [reflexivity|]; constructor; apply T; [eexists; reflexivity|vm_compute; reflexivity]|].
    constructor; [split; [reflexivity|]; constructor; apply T; [eexists; reflexivity|vm_compute; reflexivity]|constructor].
Qed.

(** False for data with keys of digits: the leaves of the dictionary are ordered as
    text, those of the tree of places as numbers. *)
Definition C52_product_always : Prop := forall (m : matmul Z) sh data p r,
  wf_tree sh -> trel (fun s d => exists n, shp d = n :: s) sh data ->
  matmul_run 0%Z 1%Z Z.add Z.mul m (fun s => mk_arr s []) sh data = Ok (p, r) ->
  forall beta x, beta < hd 0 (shp r) -> trel (sample_of 0%Z beta) data x ->
  exists ops a, chosen (mm_sep m) (mm_order m) (mm_par m) x ops /\ is_product 0%Z Z.add Z.mul ops a /\ (exists n, shp r = n :: shp a) /\
    forall idx, valid (shp a) idx -> cell 0%Z r (beta :: idx) = cell 0%Z a idx.
Definition C52_digits (s : list nat) (f : list nat -> list nat) (a b : list Z) : tree (arr Z) := Dict [("2", Leaf (mk_arr (f s) a)); ("10", Leaf (mk_arr (f s) b))].
Lemma C52_one_sample (s : list nat) (l : list Z) : sample_of 0%Z 0 (mk_arr (1 :: s) l) (mk_arr s l).
Proof. split; [exists 1; reflexivity|]. intros idx _. reflexivity. Qed.
Theorem C52_product_refuted : ~ C52_product_always.
Proof.
  intros H.
  destruct (H (mk_matmul None false None (Some ["2"; "10"]) "."%char) (Dict [("2", Leaf [2; 2]); ("10", Leaf [2; 2])])
     (C52_digits [2; 2] (cons 1) [1; 1; 0; 1]%Z [1; 0; 1; 1]%Z) NoPars (mk_arr [1; 2; 2] [1; 1; 1; 2]%Z)) with (beta := 0)
     (x := C52_digits [2; 2] (fun s => s) [1; 1; 0; 1]%Z [1; 0; 1; 1]%Z) as (ops & a & H1 & H2 & _ & H3).
  - repeat constructor; cbn; intuition discriminate.
  - econstructor; [reflexivity|]. repeat constructor; eexists; reflexivity.
  - vm_compute. reflexivity.
  - cbn. lia.
  - econstructor; [reflexivity|]. repeat constructor; cbn [fst snd]; apply C52_one_sample.
  - cbn [chosen mm_order mm_sep] in H1. inversion H1 as [|p1 a1 ps1 l1 E1 F1]; subst. inversion F1 as [|p2 a2 ps2 l2 E2 F2]; subst. inversion F2; subst.
    cbn in E1, E2. injection E1 as <-. injection E2 as <-. destruct H2 as (f & l & K1 & K2 & K3). cbn in K1, K2. injection K1 as <-. injection K2 as <-. cbn in K3. destruct K3 as [K3 K4].
    rewrite K3 in H3. specialize (H3 [0; 0]). rewrite (K4 0 0) in H3 by lia. vm_compute in H3. assert (V : valid [2; 2] [0; 0]) by (repeat constructor). specialize (H3 V). discriminate.
Qed.

(** False for 26 operands: the letters of the output are sorted, "A" before "a", so
    the result is transposed. *)
Definition C52_many_always : Prop := forall (m : matmul Z) sh data p r,
  mm_order m = None -> wf_tree sh -> trel (fun s d => exists n, shp d = n :: s) sh data ->
  matmul_run 0%Z 1%Z Z.add Z.mul m (fun s => mk_arr s []) sh data = Ok (p, r) ->
  forall beta x, beta < hd 0 (shp r) -> trel (sample_of 0%Z beta) data x ->
  exists ops a, chosen (mm_sep m) (mm_order m) (mm_par m) x ops /\ is_product 0%Z Z.add Z.mul ops a /\ (exists n, shp r = n :: shp a).
Definition C52_ones (n : nat) : list (list nat) := [2; 1] :: repeat [1; 1] n ++ [[1; 3]].
Definition C52_unit (s : list nat) : arr Z := mk_arr s (repeat 1%Z (prod s)).
Theorem C52_many_refuted : ~ C52_many_always.
Proof.
  intros H.
  destruct (H (mk_matmul None false None None "."%char) (Lst (map Leaf (C52_ones 24)))
     (Lst (map (fun s => Leaf (C52_unit (1 :: s))) (C52_ones 24))) NoPars (C52_unit [1; 3; 2])) with (beta := 0)
     (x := Lst (map (fun s => Leaf (C52_unit s)) (C52_ones 24))) as (ops & a & H1 & H2 & n & H3).
  - reflexivity.
  - cbn. repeat constructor.
  - cbn. repeat constructor; eexists; reflexivity.
  - vm_compute. reflexivity.
  - cbn. lia.
  - constructor. generalize (C52_ones 24). intros l. induction l as [|s l IH]; cbn [map]; constructor; [|exact IH]. constructor.
    replace (C52_unit (1 :: s)) with (mk_arr (1 :: s) (repeat 1%Z (prod s))) by (unfold C52_unit; cbn [prod fold_right]; f_equal; f_equal; unfold prod; lia). apply C52_one_sample.
  - cbn [chosen mm_order] in H1. cbn in H1. subst ops. destruct H2 as (f & l & K1 & K2 & K3). cbn in K1, K2. injection K1 as <-. injection K2 as <-. cbn in K3, H3. destruct K3 as [K3 _].
    rewrite K3 in H3. cbn in H3. discriminate.
Qed.
(** False for more than fifty: an accepted chain of matrices fails. *)
Definition C52_accepted_always : Prop := forall (m : matmul Z) n,
  mm_order m = None -> mm_par m = None -> mm_train m = false -> mm_out m = None ->
  exists p r, matmul_run 0%Z 1%Z Z.add Z.mul m (fun s => mk_arr s []) (Lst (map Leaf (C52_ones n))) (Lst (map (fun s => Leaf (C52_unit (1 :: s))) (C52_ones n))) = Ok (p, r).
Theorem C52_accepted_refuted : ~ C52_accepted_always.
Proof. intros H. destruct (H (mk_matmul None false None None "."%char) 49 eq_refl eq_refl eq_refl eq_refl) as (p & r & E). vm_compute in E. discriminate. Qed.
Print Assumptions C52_matrix_product.
Print Assumptions C52_product_associative.
Print Assumptions C52_product_refuted.
Print Assumptions C52_many_refuted.
Print Assumptions C52_accepted_refuted.
