(** Properties of Einsum modules: C51 and the two further ones, C64 (samples are
    independent) and C65 (announced shape). *)
From Coq Require Import ZArith.
From Verif Require Import Base TreeUtil TreeSpec Seq NdArray Einsum EinsumSpec EinsumProofs EinsumMain EinsumCompute EinsumBatch.
Local Open Scope string_scope.
Local Open Scope list_scope.
Local Open Scope nat_scope.

(** ** C51 *)
(** Whatever form the accepted notation has, it reads as leading operands [L],
    operands [I] of the data and an output, and (unless the first of several
    data operands is a scalar) the subscripts are those with a fresh letter in
    front of every data operand and of the output and of nothing else. *)
Theorem C51_batch_index_fresh : forall has_params e shapes c,
  wf_tree e -> wf_tree shapes -> leaves shapes <> [] -> concrete_einsum_str has_params e shapes = Ok c ->
  exists l i o L I O, notation shapes e l i o /\ operands shapes l i o L I O /\ (has_params = true -> L <> None) /\
    (~ bare i -> Forall (fun s => s <> "") I) /\
    (length I = 1 \/ hd "" I <> "" ->
     exists b out, letter b /\ fresh b (out :: leading L ++ I) /\ output_of (leading L ++ I) O out /\
       c = batched (leading L) I out b /\ Forall word (out :: leading L ++ I) /\
       forall k s n, nth_error I k = Some s -> nth_error (leaves shapes) k = Some n -> slen s = length n).
Proof. exact concrete_sound. Qed.

(** A valid string with one group of letters per array is accepted. *)
Theorem C51_text_accepted : forall has_params shapes L I O,
  length I = length (leaves shapes) -> (length I = 1 \/ hd "" I <> "") -> (has_params = true -> L <> []) ->
  Forall word (L ++ I) -> (forall o, O = Some o -> word o) ->
  (forall k s n, nth_error I k = Some s -> nth_error (leaves shapes) k = Some n -> slen s = length n) ->
  (exists b, letter b /\ fresh b (match O with Some o => [o] | None => [] end ++ L ++ I)) ->
  exists b out, letter b /\ fresh b (out :: L ++ I) /\ output_of (L ++ I) O out /\
    concrete_einsum_str has_params
      (Leaf (match O with Some o => commas (L ++ I) ++ "->" ++ o | None => commas (L ++ I) end)%string) shapes = Ok (batched L I out b).
Proof. exact concrete_text. Qed.

Example C51_example : (* matrix parameter, two arrays, output omitted *)
  concrete_einsum_str true (Leaf "cb,ba,a") (Dict [("x", Leaf [3; 2]); ("y", Leaf [2])]) = Ok "cb,dba,da->dc".
Proof. vm_compute. reflexivity. Qed.
Example C51_example_forms :
  concrete_einsum_str false (Tup [Leaf "ij"; Leaf "jk"]) (Tup [Leaf [2; 3]; Leaf [3; 4]]) = Ok "aij,ajk->aik" /\
  concrete_einsum_str true (Tup [Leaf "ij"; Dict [("y", Leaf "kl"); ("x", Leaf "jk")]; Leaf "il"]) (Dict [("x", Leaf [2; 3]); ("y", Leaf [3; 4])]) = Ok "ij,ajk,akl->ail" /\
  concrete_einsum_str true (Tup [Leaf "ij"; Lst [Leaf "j"]]) (Lst [Leaf [2]]) = Ok "ij,aj->ai" /\
  concrete_einsum_str false (Tup [Lst [Leaf "ij"]; Leaf "ji"]) (Lst [Leaf [2; 5]]) = Ok "aij->aji".
Proof. vm_compute. repeat split. Qed.
Example C51_example_hyps :
  wf_tree (Dict [("x", Leaf [3; 2]); ("y", Leaf [2])]) /\ leaves (Dict [("x", Leaf [3; 2]); ("y", Leaf [2])]) <> [] /\
  letter "z" /\ fresh "z" (["cb"] ++ ["ba"; "a"]) /\ Forall word (["cb"] ++ ["ba"; "a"]).
Proof.
  assert (W : forall s, forallb is_letter (chars s) = true -> word s).
  { intros s H c Hc. rewrite forallb_forall in H. apply letter_iff, H. exact Hc. }
  repeat split.
  - repeat constructor; cbn; intuition discriminate.
  - discriminate.
  - left. vm_compute. lia.
  - intros s Hs. cbn in Hs. unfold occurs. destruct Hs as [ <- |[ <- |[ <- |[]]]]; cbn; intuition discriminate.
  - cbn [app]. constructor; [apply W; reflexivity|]. constructor; [apply W; reflexivity|]. constructor; [apply W; reflexivity|constructor].
Qed.

(** False for all strings: an empty first group is dropped. *)
Definition C51_batch_everywhere_always : Prop := forall I o shapes c,
  length I = length (leaves shapes) -> Forall word I -> word o ->
  concrete_einsum_str false (Leaf (commas I ++ "->" ++ o)%string) shapes = Ok c ->
  exists b, fresh b (o :: I) /\ c = batched [] I o b.
Theorem C51_batch_everywhere_refuted : ~ C51_batch_everywhere_always.
Proof.
  intros H. destruct (H [""; ""] "" (Tup [Leaf []; Leaf []]) "a->a" eq_refl) as (b & _ & E).
  - constructor; [intros c []|constructor; [intros c []|constructor]].
  - intros c [].
  - vm_compute. reflexivity.
  - apply (f_equal slen) in E. vm_compute in E. discriminate.
Qed.
(** The same makes strings with a scalar first array fail. *)
Definition C51_accepted_always : Prop := forall I o shapes,
  length I = length (leaves shapes) -> Forall word I -> word o ->
  (forall k s n, nth_error I k = Some s -> nth_error (leaves shapes) k = Some n -> slen s = length n) ->
  (exists b, letter b /\ fresh b (o :: I)) ->
  exists c, concrete_einsum_str false (Leaf (commas I ++ "->" ++ o)%string) shapes = Ok c.
Theorem C51_accepted_refuted : ~ C51_accepted_always.
Proof.
  intros H. destruct (H [""; "i"] "i" (Tup [Leaf []; Leaf [3]])) as (c & E).
  - reflexivity.
  - constructor; [intros c []|constructor; [|constructor]]. intros c [ <- |[]]. left. vm_compute. lia.
  - intros c [ <- |[]]. left. vm_compute. lia.
  - intros [|[|[|k]]] s n H1 H2; cbn in H1, H2; try discriminate; injection H1 as <-; injection H2 as <-; reflexivity.
  - exists "z"%char. split; [left; vm_compute; lia|]. intros s Hs. unfold occurs. destruct Hs as [ <- |[ <- |[ <- |[]]]]; cbn; intuition discriminate.
  - vm_compute in E. discriminate.
Qed.

(** ** C64: every sample is treated by itself, as by the subscripts written. *)
Theorem C64_samples_independent : forall (V : Type) (zero one : V) (add mul : V -> V -> V) e p shapes data r,
  wf_tree e -> wf_tree shapes -> leaves shapes <> [] -> einsum_call zero one add mul e p shapes data = Ok r ->
  exists l i o L I O, notation shapes e l i o /\ operands shapes l i o L I O /\
    ((length I = 1 \/ hd "" I <> "") -> length I = length (leaves data) ->
     exists out n, output_of (leading L ++ I) O out /\ (exists s, shp r = n :: s) /\ Forall (fun d => exists s, shp d = n :: s) (leaves data) /\
       forall beta xs, beta < n -> Forall2 (sample zero beta) (leaves data) xs ->
       exists a, np_einsum zero one add mul (map list_ascii_of_string (leading L ++ I)) (list_ascii_of_string out) (par_list p ++ xs) = Ok a /\
         shp r = n :: shp a /\
         forall idx, valid (shp a) idx -> entry zero r (beta :: idx) = entry zero a idx).
Proof. exact (fun V => @call_samples V). Qed.
(** Every sample exists. *)
Theorem C64_samples_exist : forall (V : Type) (zero : V) (d : arr V) n s beta, shp d = n :: s ->
  exists x, shp x = s /\ wf_arr x /\ sample zero beta d x.
Proof. exact (fun V => @sample_exists V). Qed.

Definition C64_matrix : arr Z := mk_arr [2; 3] [1; 2; 3; 4; 5; 6]%Z.
Definition C64_data : tree (arr Z) := Leaf (mk_arr [2; 3] [1; 0; 0; 0; 1; 1]%Z).
Example C64_example : einsum_call 0%Z 1%Z Z.add Z.mul (Leaf "ij,j") (OnePar C64_matrix) (Leaf [3]) C64_data = Ok (mk_arr [2; 2] [1; 4; 5; 11]%Z).
Proof. vm_compute. reflexivity. Qed.
Example C64_example_sample :
  Forall2 (sample 0%Z 1) (leaves C64_data) [mk_arr [3] [0; 1; 1]%Z] /\
  np_einsum 0%Z 1%Z Z.add Z.mul (map list_ascii_of_string ["ij"; "j"]) (list_ascii_of_string "i") [C64_matrix; mk_arr [3] [0; 1; 1]%Z] = Ok (mk_arr [2] [5; 11]%Z).
Proof.
  split; [|vm_compute; reflexivity]. constructor; [|constructor]. split; [exists 2; reflexivity|]. intros idx H.
  inversion H as [|i n idx' s Hi Hr]; subst. inversion Hr; subst. cbn in Hi. destruct i as [|[|[|i]]]; [reflexivity..|exfalso; cbn in Hi; lia].
Qed.

(** ** C65: the announced shape is that of the output. *)
Theorem C65_shape_announced : forall (V : Type) (zero one : V) (add mul : V -> V -> V) e given p shapes data s r,
  wf_tree e -> wf_tree shapes -> leaves shapes <> [] -> length (par_list p) <= 1 ->
  einsum_shape e given p shapes = Ok s -> einsum_call zero one add mul e p shapes data = Ok r ->
  Forall2 (fun t d => exists n, shp d = n :: t) (leaves shapes) (leaves data) ->
  exists l i o L I O, notation shapes e l i o /\ operands shapes l i o L I O /\
    ((length I = 1 \/ hd "" I <> "") -> length I = length (leaves shapes) -> exists n, shp r = n :: s).
Proof. intros V zero one add mul e given p shapes data s r H1 H2 H3 _. exact (announced_shape zero one add mul e given p shapes data s r H1 H2 H3). Qed.
Example C65_example : einsum_shape (Leaf "ij,j") None (OnePar C64_matrix) (Leaf [3]) = Ok [2].
Proof. vm_compute. reflexivity. Qed.

(** False for several parameter arrays: the call would succeed, but the shape is
    refused. *)
Definition C65_announced_always : Prop := forall e p shapes data (r : arr Z),
  einsum_call 0%Z 1%Z Z.add Z.mul e p shapes data = Ok r ->
  Forall2 (fun t d => exists n, shp d = n :: t) (leaves shapes) (leaves data) ->
  exists s n, einsum_shape e None p shapes = Ok s /\ shp r = n :: s.
Theorem C65_announced_refuted : ~ C65_announced_always.
Proof.
  intros H. destruct (H (Leaf "ij,jk,k->i") (ManyPars [mk_arr [3; 2] [1; 2; 3; 4; 5; 6]%Z; mk_arr [2; 2] [1; 2; 3; 4]%Z])
                        (Leaf [2]) (Leaf (mk_arr [1; 2] [1; 1]%Z)) (mk_arr [1; 3] [17; 37; 57]%Z)) as (s & n & E & _).
  - vm_compute. reflexivity.
  - constructor; [exists 1; reflexivity|constructor].
  - vm_compute in E. discriminate.
Qed.

Print Assumptions C51_batch_index_fresh.
Print Assumptions C51_text_accepted.
Print Assumptions C51_batch_everywhere_refuted.
Print Assumptions C51_accepted_refuted.
Print Assumptions C64_samples_independent.
Print Assumptions C64_samples_exist.
Print Assumptions C65_shape_announced.
Print Assumptions C65_announced_refuted.
