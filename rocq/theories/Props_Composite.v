(** C55, C67, C68: the composite modules AffineObservablePMM and
    AffineEigenvaluePMM. *)
From Verif Require Import Base TreeUtil Serial NonSeqSpec Modules Eigen Composite CompositeSpec CompositeProofs CompositeMain.
Local Open Scope string_scope.
Local Open Scope list_scope.
Local Open Scope nat_scope.

(** After a successful compile, whatever was compiled before with whatever
    outcome, the modules are the documented pipeline with the options and the
    matrices Ms and Ds the user gave (the bias only in kind). *)
Theorem C55_supplied_partial (herm : arr -> bool) (a : pmm_args) h draw t m' :
  compile herm draw (compiles herm (new a) h) t = (m', Ok tt) ->
  exists last, pipeline a (c_mods m') last /\ bias_part a last.
Proof. exact (supplied_used herm a h draw t m'). Qed.

Definition mat3 := mk_arr 10 [3; 2; 2] false.
Definition obs4 := mk_arr 11 [3; 2; 2; 2] false.
Definition vec3 := mk_arr 12 [3] true.
Definition args0 : obs_args :=
  mk_obs (SInt 2) (Some 1) None None true (Some 2) (Some 3) true true false (Some mat3) (Some obs4) (Some vec3) 0.
Definition draw0 (i : nat) (s : list nat) : arr := mk_arr (100 + i) s (i =? 3).
Definition yes (_ : arr) := true.

Example C55_example :
  exists m, compile yes draw0 (compiles yes (new (AObs args0)) [(draw0, Leaf [5]); (draw0, Lst [])]) (Leaf [2]) = (m, Ok tt) /\
    c_mods m = [CMat (ahm_obj (Some 2) 1 true (Some mat3) 0 true); CVec (Some 1) "lm";
                CSum false (evs_obj (Some 2) (Some 3) (Some obs4) 0 true true);
                CBias (bias_obj (VArr (mk_arr 103 [3] true)) 0 true false true)] /\
    c_out m = Some (Leaf [3]).
Proof. eexists. split; [reflexivity|split; reflexivity]. Qed.

(** The supplied bias is not the one used ... *)
Theorem C55_supplied_bias_refuted :
  exists herm a draw t m', (forall i s, a_shape (draw i s) = s) /\
    compile herm draw (new a) t = (m', Ok tt) /\
    ~ exists last, pipeline a (c_mods m') last /\ bias_honoured a last.
Proof.
  exists yes, (AObs args0), draw0, (Leaf [2]). eexists. split; [reflexivity|]. split; [reflexivity|].
  intros (last & Hp & Hb). specialize (Hb vec3 eq_refl eq_refl). subst last. inversion Hp.
Qed.
(** ... indeed it makes no difference in any history. *)
Theorem C55_bias_ignored_always (herm : arr -> bool) (a : pmm_args) b h :
  c_mods (compiles herm (new (with_b b a)) h) = c_mods (compiles herm (new a) h).
Proof. exact (b_ignored herm a b h). Qed.

(** Modules appended to a composite module are lost at the next compile. *)
Theorem C67_append_refuted :
  exists herm draw m n t m', compile herm draw (append m (CUser n)) t = (m', Ok tt) /\ ~ In (CUser n) (c_mods m').
Proof.
  exists yes, draw0, (new (AObs args0)), 7, (Leaf [2]). eexists. split; [reflexivity|].
  cbn. intros [E|[E|[E|[E|[]]]]]; discriminate.
Qed.
Theorem C67_append_lost_always (herm : arr -> bool) draw m n t m' :
  compile herm draw (append m (CUser n)) t = (m', Ok tt) -> ~ In (CUser n) (c_mods m').
Proof. exact (appended_lost herm draw m n t m'). Qed.
(** ... together with everything trained before. *)
Theorem C67_append_starts_over_always (herm : arr -> bool) draw m c t m' :
  compile herm draw (append m c) t = (m', Ok tt) -> compile herm draw (new (c_args m)) t = (m', Ok tt).
Proof. exact (appended_forgotten herm draw m c t m'). Qed.
(** [pmm + module] can never be compiled. *)
Theorem C67_sum_never_compiles_always (herm : arr -> bool) draw m c h t :
  snd (compile herm draw (compiles herm (add m c) h) t) <> Ok tt.
Proof. exact (sum_never_compiles herm draw m c h t). Qed.
(** Without edits, compiling again for the same shape keeps everything. *)
Theorem C67_recompile_partial (herm : arr -> bool) a h draw draw' s m' :
  (forall i s, a_shape (draw i s) = s) ->
  compile herm draw (compiles herm (new a) h) (Leaf s) = (m', Ok tt) ->
  compile herm draw' m' (Leaf s) = (m', Ok tt).
Proof. exact (compile_again herm a h draw draw' s m'). Qed.
Example C67_example :
  exists m, (forall i s, a_shape (draw0 i s) = s) /\ compile yes draw0 (new (AObs args0)) (Leaf [2]) = (m, Ok tt) /\
    compile yes (fun i s => mk_arr (200 + i) s true) m (Leaf [2]) = (m, Ok tt).
Proof. eexists. split; [reflexivity|]. split; reflexivity. Qed.

(** The announced output shape is the compiled one when the sizes are given. *)
Theorem C68_announced_partial (herm : arr -> bool) a h draw t m' :
  match a with AObs a => o_out a <> None | AEig a => e_num a <> None end ->
  compile herm draw (compiles herm (new a) h) t = (m', Ok tt) ->
  exists o, c_out m' = Some o /\ get_output_shape a t = Ok (tmap (map Some) o).
Proof. exact (announced herm a h draw t m'). Qed.
Example C68_example :
  exists m, compile yes draw0 (new (AObs args0)) (Dict [("x", Leaf [2])]) = (m, Ok tt) /\
    c_out m = Some (Dict [("x", Leaf [3])]) /\
    get_output_shape (AObs args0) (Dict [("x", Leaf [2])]) = Ok (Dict [("x", Leaf [Some 3])]).
Proof. eexists. split; [reflexivity|]. split; reflexivity. Qed.

(** All eigenvalues: None is announced where n is produced. *)
Theorem C68_all_eigenvalues_refuted :
  exists a t m' o, compile yes draw0 (new a) t = (m', Ok tt) /\ c_out m' = Some o /\
    get_output_shape a t <> Ok (tmap (map Some) o).
Proof.
  exists (AEig (mk_eig (SInt 2) None "SA" None None 0 true)), (Leaf [2]). eexists _, _.
  split; [reflexivity|]. split; [reflexivity|]. discriminate.
Qed.
(** The output size is known from the observables, but nothing is announced. *)
Theorem C68_size_from_observables_refuted :
  exists a t m' o, compile yes draw0 (new a) t = (m', Ok tt) /\ c_out m' = Some o /\
    get_output_shape a t = Err ValueError.
Proof.
  exists (AObs (mk_obs (SInt 2) (Some 1) None None true (Some 2) None true true false None (Some obs4) None 0)), (Leaf [2]).
  eexists _, _. split; [reflexivity|]. split; reflexivity.
Qed.

Print Assumptions C55_supplied_partial.
Print Assumptions C55_supplied_bias_refuted.
Print Assumptions C55_bias_ignored_always.
Print Assumptions C67_append_lost_always.
Print Assumptions C67_sum_never_compiles_always.
Print Assumptions C67_recompile_partial.
Print Assumptions C68_announced_partial.
