(** C36: serialising and loading whole (nested) models. *)
From Coq Require Import ZArith Permutation.
From Verif Require Import Base TreeUtil TreeSpec NonSeqSpec Modules ModulesSpec ModulesProofs Serial SerialSpec SerialProofs SerialFile SerialMods.
Local Open Scope string_scope.
Local Open Scope list_scope.
Local Open Scope nat_scope.

(** Every model all of whose modules copy and accept their own parameters back
    is serialised, and loading gives the same model. *)
Theorem C36_roundtrip_partial : forall (tower : bool) (ready : fields -> tree mdl -> bool) m,
  good tower ready m ->
  exists s m', save tower ready m = Ok s /\ load s = Ok m' /\ msame m m'.
Proof. exact copies_model. Qed.

(** The modules come back in the same evaluation order (sequential models run
    their modules in the order of the flattened tree). *)
Theorem C36_leaves : forall (tower : bool) (ready : fields -> tree mdl -> bool) k f ms s m',
  good tower ready (Net k f ms) -> save tower ready (Net k f ms) = Ok s -> load s = Ok m' ->
  exists f' ms', m' = Net k f' ms' /\ same_fields k f f' /\ Forall2 msame (leaves ms) (leaves ms').
Proof. exact copies_leaves. Qed.

(** The built-in modules that do accept their parameters back: all modules
    without parameters, and the others once they have parameters. *)
Theorem C36_settled_plain : forall num_eig which shape keypaths sep comment args kwargs axis order t,
  settled eigen_cls (eigen_obj num_eig which t) /\ settled reshape_cls (reshape_obj shape t) /\
  settled treeflatten_cls (mk_obj [] t) /\ settled treekey_cls (treekey_obj keypaths sep t) /\
  settled comment_cls (comment_obj comment t) /\ settled activation_cls (activation_obj args kwargs t) /\
  settled concat_cls (concat_obj axis order sep t).
Proof. intros. repeat split; apply settled_none. Qed.
Theorem C36_settled_set : forall c sh mag real name str p dm i osh po sep t,
  settled constant_cls (constant_obj c sh mag real name t) /\
  settled einsum_cls (einsum_obj str p dm mag (truthy real) i t) /\
  settled matmul_cls (matmul_obj p osh po (VFloat mag) real sep str dm i t).
Proof. intros. repeat split; [apply settled_constant | apply settled_einsum | apply settled_matmul]. Qed.
Theorem C36_settled_affine_hermitian : forall (herm : arr -> bool) (draw : list nat -> arr) o a,
  (forall s, a_shape (draw s) = s) -> (forall s, herm (draw s) = true) ->
  reach (fun o => exists n smoothing Ms mag bias_term, ahm_init herm n smoothing Ms mag bias_term = Ok o)
        (fun o o' => exists d, ahm_compile draw o d = Ok o') (ahm_set_par herm) o ->
  attr o "Ms" = Ok (VArr a) -> settled (ahm_cls herm) o.
Proof. exact (fun h d o a H1 H2 H => settled_ahm h o a (ahm_reach_inv h d H1 H2 o H)). Qed.
Theorem C36_settled_affine_tensor : forall (draw : list nat -> arr) o a,
  (forall s, a_shape (draw s) = s) ->
  reach (fun o => exists sh Ms mag bias_term real, at_init sh Ms mag bias_term real = Ok o)
        (fun o o' => exists d, at_compile draw o d = Ok o') at_set_par o ->
  attr o "Ms" = Ok (VArr a) -> settled at_cls o.
Proof. exact (fun d o a H1 H => settled_at o a (at_reach_inv d H1 o H)). Qed.
Theorem C36_settled_expectation : forall (herm : arr -> bool) (draw : list nat -> arr) o a,
  (forall s, a_shape (draw s) = s) -> (forall s, herm (draw s) = true) ->
  reach (fun o => exists l q Ds mag centered, evs_init herm l q Ds mag centered = Ok o)
        (fun o o' => exists n, evs_compile draw o n = Ok o') (evs_set_par herm) o ->
  attr o "Ds" = Ok (VArr a) -> settled (evs_cls herm) o.
Proof. exact (fun h d o a H1 H2 H => settled_evs h o a (evs_reach_inv h d H1 H2 o H)). Qed.
Theorem C36_settled_bias : forall asarray o,
  reach (fun o => exists b mag real scalar t,
           (scalar = false -> leaves_are is_arr b) /\ bias_init asarray b mag real scalar t = Ok o)
        bias_compiled bias_set_par o ->
  (forall b, attr o "bias" = Ok b -> pwf b) ->
  (attr o "bias" = Ok VNone -> attr o "scalar" = Ok (VBool false) /\ attr o "real" = Ok (VBool true)) ->
  settled bias_cls o.
Proof. exact (fun f o H => settled_bias o (bias_reach_inv f o H)). Qed.

(** A nested model meeting the hypotheses: a dictionary with a compiled affine
    matrix (frozen) followed by eigenvalues, and a nested sequential model
    with a bias; shapes and optimiser states present. *)
Definition ex_fields name := mk_fields name 7 (Some [VArr (mk_arr 9 [2] true)])
  (VTup [VInt 2]) (VTup [VInt 1]) VNone VNone VNone.
Definition ex_model : mdl :=
  Net KSeq (ex_fields (Some "net"))
    (Dict [("b", Lst [Leaf (Atom eigen_cls (eigen_obj (Some 2%positive) "sa" true));
                      Leaf (Net KSeq (ex_fields None) (Tup [Leaf (Atom bias_cls (bias_obj (VArr (mk_arr 4 [2] true)) 0 true false true))]))]);
           ("a", Leaf (Atom (ahm_cls (fun _ => true)) (ahm_obj (Some 5) 1 true (Some (mk_arr 3 [3; 5; 5] false)) 0 false)))]).

Lemma leaves_int_ex l : leaves_are is_int (VTup (map VInt l)).
Proof. intros x Hx. cbn in Hx. apply in_flat_map in Hx as (y & Hy & Hx). apply in_map_iff in Hy as (z & <- & _). destruct Hx as [<-|[]]. reflexivity. Qed.
Example C36_ex : forall tower ready, good tower ready ex_model.
Proof.
  intros tower ready. unfold ex_model. apply good_net.
  - repeat constructor; cbn; intuition discriminate.
  - assert (E : good tower ready (Atom eigen_cls (eigen_obj (Some 2%positive) "sa" true))).
    { constructor; [apply copy_eigen | apply settled_none]. }
    assert (A : good tower ready (Atom (ahm_cls (fun _ => true)) (ahm_obj (Some 5) 1 true (Some (mk_arr 3 [3; 5; 5] false)) 0 false))).
    { assert (I : ahm_inv (fun _ => true) (ahm_obj (Some 5) 1 true (Some (mk_arr 3 [3; 5; 5] false)) 0 false)).
      { do 6 eexists. split; [reflexivity|]. intros m [= <-]. exists 3, 5. auto. }
      constructor; [apply copy_ahm; exact I | eapply settled_ahm; [exact I | reflexivity]]. }
    assert (B : good tower ready (Net KSeq (ex_fields None) (Tup [Leaf (Atom bias_cls (bias_obj (VArr (mk_arr 4 [2] true)) 0 true false true))]))).
    { apply good_net; [repeat constructor| |apply (leaves_int_ex [2%Z])|apply (leaves_int_ex [1%Z])|discriminate].
      intros m Hm. inversion Hm as [|? ? ? ? Hin| |? ? ? Hin Hl]; subst. destruct Hin as [<-|[]]. inversion Hl; subst.
      assert (I : bias_inv (bias_obj (VArr (mk_arr 4 [2] true)) 0 true false true)) by (do 5 eexists; split; [reflexivity|]; right; reflexivity).
      constructor; [apply copy_bias; exact I|apply settled_bias; [exact I| |discriminate]].
      intros b [= <-]. apply pwf_other. reflexivity. }
    intros m Hm. inversion Hm as [|? ? t ? Hin Hl| |]; subst. destruct Hin as [[= <- <-]|[[= <- <-]|[]]].
    + inversion Hl as [| |? ? ? Hin' Hl'|]; subst. destruct Hin' as [<-|[<-|[]]]; inversion Hl'; subst; assumption.
    + inversion Hl; subst. assumption.
  - apply (leaves_int_ex [2%Z]).
  - apply (leaves_int_ex [1%Z]).
  - discriminate.
Qed.

(** Loading from a file works exactly for modules arranged in dictionaries and
    rectangular nested lists: tuples come back as lists and the model is
    rejected; ragged nesting cannot be saved. *)
Theorem C36_file_partial : forall (tower : bool) (ready : fields -> tree mdl -> bool) k f ms,
  good tower ready (Net k f ms) ->
  ((exists m', save_load tower ready (Net k f ms) = Ok m' /\ msame (Net k f ms) m') <-> exists s, array_of s ms).
Proof.
  exact (fun tw rd k f ms G => conj (fun H => match H with ex_intro _ m' (conj E _) => file_only tw rd k f ms m' E end)
                                    (fun H => match H with ex_intro _ s A => file_ok tw rd k f ms s G A end)).
Qed.
Example C36_file_ex : exists s, array_of s (match ex_model with Net _ _ ms => ms | _ => NoneT end).
Proof. exists []. constructor. Qed.

(** A tuple of modules copies but cannot be loaded from a file. *)
Definition eig := Leaf (Atom eigen_cls (eigen_obj (Some 2%positive) "sa" true)).
Definition seq_of (ms : tree mdl) := Net KSeq (mk_fields None 0 None VNone VNone VNone VNone VNone) ms.
Theorem C36_file_tuple_refuted : exists m, forall tower ready,
  good tower ready m /\ save_load tower ready m = Err ValueError.
Proof.
  exists (seq_of (Tup [eig])). intros tower ready. split; [|destruct tower; vm_compute; reflexivity].
  apply good_net; [repeat constructor| |intros x []|intros x []|discriminate].
  intros m Hm. inversion Hm as [| | |? ? ? Hin Hl]; subst. destruct Hin as [<-|[]]. inversion Hl; subst.
  constructor; [apply copy_eigen | apply settled_none].
Qed.
(** A list holding a module and a list of modules cannot be saved. *)
Theorem C36_file_ragged_refuted : exists m, forall tower ready,
  good tower ready m /\ save_load tower ready m = Err ValueError.
Proof.
  exists (seq_of (Lst [eig; Lst [eig]])). intros tower ready. split; [|destruct tower; vm_compute; reflexivity].
  assert (E : good tower ready (Atom eigen_cls (eigen_obj (Some 2%positive) "sa" true))) by (constructor; [apply copy_eigen | apply settled_none]).
  apply good_net; [repeat constructor| |intros x []|intros x []|discriminate].
  intros m Hm. inversion Hm as [| |? ? ? Hin Hl|]; subst. destruct Hin as [<-|[<-|[]]]; inversion Hl as [|? ? ? ? Hin'|? ? ? Hin' Hl'|]; subst; auto.
  destruct Hin' as [<-|[]]. inversion Hl'; subst. exact E.
Qed.

(** A model that has not been compiled (or, for a graph model, that holds an
    unused module without parameters) is saved without complaint but cannot be
    loaded: the missing parameters of the affine matrix are set to None. *)
Theorem C36_uncompiled_refuted : exists ms, forall k tower,
  exists s, save tower (fun _ _ => true) (Net k (mk_fields None 0 None VNone VNone (VList []) (VDict []) (VStr ".")) ms) = Ok s /\
            load s = Err ValueError.
Proof.
  exists (Lst [Leaf (Atom (ahm_cls (fun _ => true)) (ahm_obj (Some 5) 1 true None 0 true)); eig]).
  intros k tower. 
  destruct k, tower; (eexists; split; [vm_compute; reflexivity | vm_compute; reflexivity]).
Qed.

(** The order in which a dictionary of modules was written is lost. *)
Theorem C36_dict_order_refuted : exists d d', d <> d' /\ forall tower ready,
  exists s f, save tower ready (seq_of (Dict d)) = Ok s /\ load s = Ok (Net KSeq f (Dict d')) /\ map fst d = ["b"; "a"] /\ map fst d' = ["a"; "b"].
Proof.
  exists [("b", eig); ("a", eig)], [("a", eig); ("b", eig)]. split; [discriminate|]. intros tower ready.
  destruct tower; (eexists; eexists; split; [vm_compute; reflexivity | split; [vm_compute; reflexivity | split; reflexivity]]).
Qed.

Print Assumptions C36_roundtrip_partial.
Print Assumptions C36_leaves.
Print Assumptions C36_settled_bias.
Print Assumptions C36_file_partial.
Print Assumptions C36_uncompiled_refuted.
