(** C110: a compiled Einsum or MatMul module can be called. *)
From Coq Require Import ZArith.
From Verif Require Import Base TreeUtil TreeSpec Seq SerialSpec NdArray Einsum EinsumSpec MatMul MatMulSpec EinsumObj EinsumRun MatMulRun.
Local Open Scope string_scope.
Local Open Scope list_scope.
Local Open Scope nat_scope.

(** Einsum: if compile succeeds, the operands of the notation get sizes that fit the
    shapes of the data and of the parameters the module then has, and every batch
    of data of these shapes, also an empty one, is evaluated, to an array of the
    sizes of the output.  Where there is an output, its letters are distinct and
    occur in the operands; one string per array. *)
Theorem C110_einsum_runs : forall (V : Type) (zero one : V) (add mul : V -> V -> V) e given train normal sh (o o' : eobj V),
  wf_tree e -> wf_tree sh -> leaves sh <> [] -> compile_obj e given train normal sh o = (o', Ok tt) ->
  exists l i out L I O, notation sh e l i out /\ operands sh l i out L I O /\
    ((length I = 1 \/ hd "" I <> "") -> length I = length (leaves sh) ->
     (forall w, O = Some w -> NoDup (list_ascii_of_string w) /\ forall c, occurs c w -> exists s, In s (leading L ++ I) /\ occurs c s) ->
     exists w size, output_of (leading L ++ I) O w /\
       Forall2 (fun s a => shp a = map size (list_ascii_of_string s)) (leading L) (par_list (eo_pars o')) /\
       Forall2 (fun s t => t = map size (list_ascii_of_string s)) I (leaves sh) /\
       forall n data, Forall2 (fun t x => shp x = n :: t) (leaves sh) (leaves data) ->
       exists r, call_obj zero one add mul e o' data = Ok r /\ shp r = n :: map size (list_ascii_of_string w)).
Proof. exact (fun V => @compiled_runs V). Qed.

Definition C110_normal (s : list nat) : arr Z := mk_arr s (repeat 1%Z (prod s)).
Example C110_einsum_example :
  let o' := mk_eobj (Some (Leaf [3])) (OnePar (C110_normal [2; 3])) in
  compile_obj (Leaf "ij,j->i") (Some [("i"%char, 2)]) true C110_normal (Leaf [3]) (mk_eobj None NoPars) = (o', Ok tt) /\
  call_obj 0%Z 1%Z Z.add Z.mul (Leaf "ij,j->i") o' (Leaf (mk_arr [2; 3] [1; 2; 3; 4; 5; 6]%Z)) = Ok (mk_arr [2; 2] [6; 6; 15; 15]%Z).
Proof. vm_compute. split; reflexivity. Qed.

(** Compiling a module again for the same shapes succeeds and changes nothing, if it
    has at most one array of parameters. *)
Theorem C110_compile_again : forall (V : Type), inhabited V -> forall e given train train' normal normal' sh (o o' : eobj V),
  wf_tree e -> wf_tree sh -> leaves sh <> [] -> compile_obj e given train normal sh o = (o', Ok tt) -> length (par_list (eo_pars o')) <= 1 ->
  exists l i out L I O, notation sh e l i out /\ operands sh l i out L I O /\
    ((length I = 1 \/ hd "" I <> "") -> length I = length (leaves sh) -> compile_obj e given train' normal' sh o' = (o', Ok tt)).
Proof. intros V [z]. exact (compile_again z (fun a _ => a) (fun a _ => a)). Qed.
Example C110_again_example :
  let o' := mk_eobj (Some (Leaf [3])) (OnePar (C110_normal [2; 3])) in
  compile_obj (Leaf "ij,j->i") (Some [("i"%char, 2)]) false (fun s => mk_arr s []) (Leaf [3]) o' = (o', Ok tt) /\ length (par_list (eo_pars o')) <= 1.
Proof. vm_compute. split; [reflexivity|auto]. Qed.

(** MatMul: if compile succeeds, every batch of data of the shapes is evaluated, and
    the size of the result is the one asked for by output_shape (an integer: its
    first size; a tuple: all its sizes that are not None). *)
Theorem C110_matmul_runs : forall (V : Type) (zero one : V) (add mul : V -> V -> V) (m : matmul V) normal sh full p,
  wf_tree sh -> leaves sh <> [] ->
  (forall ps, mm_order m = Some ps -> named_dicts sh /\ forall q, In q ps -> q <> String (mm_sep m) (String (mm_sep m) "") -> full_path (mm_sep m) q) ->
  matmul_compile m normal sh = Ok (full, p) ->
  exists s, (forall n data, Forall2 (fun t x => shp x = n :: t) (leaves sh) (leaves data) ->
               exists r, matmul_run zero one add mul m normal sh data = Ok (p, r) /\ shp r = n :: s) /\
    (length (leaves sh) + (if mm_train m || match mm_par m with Some _ => true | None => false end then 1 else 0) <= 25 ->
     match mm_out m with
     | None => True
     | Some (OInt k) => hd_error s = Some k
     | Some (OTup t) => Forall2 (fun o k => forall j, o = Some j -> j = k) t s
     end).
Proof. exact (fun V => @matmul_accepts V). Qed.
Example C110_matmul_example : exists p r,
  let m := mk_matmul None true (Some (OTup [Some 2; None])) None "."%char in let sh := Dict [("x", Leaf [3; 4])] in
  wf_tree sh /\ leaves sh <> [] /\ mm_order m = None /\
  matmul_compile m C110_normal sh = Ok ("ab,dbc->dac", p) /\ p = OnePar (C110_normal [2; 3]) /\
  matmul_run 0%Z 1%Z Z.add Z.mul m C110_normal sh (Dict [("x", Leaf (C110_normal [5; 3; 4]))]) = Ok (p, r) /\ shp r = [5; 2; 4].
Proof.
  eexists _, _. cbv zeta. split; [repeat constructor; cbn; intuition discriminate|]. split; [discriminate|]. split; [reflexivity|]. vm_compute. repeat split.
Qed.

(** Without the condition on the output, the call fails: a letter that occurs in no
    operand (its size can be given), or twice in the output. *)
Definition C110_output_always : Prop := forall e given sh (o : eobj Z) data,
  compile_obj e given true C110_normal sh (mk_eobj None NoPars) = (o, Ok tt) -> trel (fun s d => exists n, shp d = n :: s) sh data ->
  exists r, call_obj 0%Z 1%Z Z.add Z.mul e o data = Ok r.
Theorem C110_output_refuted : ~ C110_output_always.
Proof.
  intros H. destruct (H (Leaf "i->k") (Some [("k"%char, 2)]) (Leaf [3]) _ (Leaf (C110_normal [1; 3])) eq_refl) as [r Hr]; [constructor; exists 1; reflexivity|]. vm_compute in Hr. discriminate.
Qed.
Theorem C110_repeated_refuted : ~ C110_output_always.
Proof.
  intros H. destruct (H (Leaf "i->ii") None (Leaf [3]) _ (Leaf (C110_normal [1; 3])) eq_refl) as [r Hr]; [constructor; exists 1; reflexivity|]. vm_compute in Hr. discriminate.
Qed.

(** A module counts as ready after every compile, also a failed one. *)
Theorem C110_ready_after : forall (V : Type) e given train normal sh (o : eobj V), is_ready (fst (compile_obj e given train normal sh o)) = true.
Proof.
  intros V e given train normal sh o. unfold compile_obj. destruct (match eo_shape o with Some s => negb (shapes_eqb s sh) | None => false end) eqn:E.
  - cbn [fst]. unfold is_ready. destruct (eo_shape o); [reflexivity|discriminate].
  - match goal with |- context [match ?c with Ok _ => _ | Err _ => _ end] => destruct c as [[[d ld] p]|x] end; reflexivity.
Qed.
(** So "ready modules can be called" is false, and after a compile that failed for
    wrong shapes the right ones are refused. *)
Definition C110_ready_always : Prop := forall e sh (o : eobj Z) x data,
  compile_obj e None true C110_normal sh (mk_eobj None NoPars) = (o, x) -> is_ready o = true -> trel (fun s d => exists n, shp d = n :: s) sh data ->
  exists r, call_obj 0%Z 1%Z Z.add Z.mul e o data = Ok r.
Theorem C110_ready_refuted : ~ C110_ready_always.
Proof.
  intros H. destruct (H (Leaf "ij") (Leaf [3]) _ _ (Leaf (C110_normal [1; 3])) eq_refl eq_refl) as [r Hr]; [constructor; exists 1; reflexivity|]. vm_compute in Hr. discriminate.
Qed.
Definition C110_retry_always : Prop := forall e sh sh' (o o' : eobj Z) x,
  compile_obj e None true C110_normal sh (mk_eobj None NoPars) = (o, Err x) -> compile_obj e None true C110_normal sh' (mk_eobj None NoPars) = (o', Ok tt) ->
  snd (compile_obj e None true C110_normal sh' o) = Ok tt.
Theorem C110_retry_refuted : ~ C110_retry_always.
Proof. intros H. specialize (H (Leaf "ij") (Leaf [3]) (Leaf [3; 4]) _ _ _ eq_refl eq_refl). vm_compute in H. discriminate. Qed.

(** With several drawn arrays of parameters, compiling again fails. *)
Definition C110_again_always : Prop := forall e given sh (o : eobj Z),
  compile_obj e given true C110_normal sh (mk_eobj None NoPars) = (o, Ok tt) -> snd (compile_obj e given true C110_normal sh o) = Ok tt.
Theorem C110_again_refuted : ~ C110_again_always.
Proof. intros H. specialize (H (Leaf "ij,jk,k->i") (Some [("i"%char, 2); ("j"%char, 2)]) (Leaf [3]) _ eq_refl). vm_compute in H. discriminate. Qed.

Print Assumptions C110_einsum_runs.
Print Assumptions C110_compile_again.
Print Assumptions C110_matmul_runs.
Print Assumptions C110_output_refuted.
Print Assumptions C110_repeated_refuted.
Print Assumptions C110_ready_after.
Print Assumptions C110_ready_refuted.
Print Assumptions C110_retry_refuted.
Print Assumptions C110_again_refuted.
