(** C35, C59, C60: cached functions. *)
From Verif Require Import Base BaseLemmas Cache CacheSpec CacheProofs CacheMode.
Local Open Scope list_scope.

(** whatever happened before, evaluation uses the current parameters and state and computes the quantity asked for *)
Theorem C35_values {E L P S Sh Sg} : forall sg_eqb sh_eqb shape_of fewer ready1 compile1 (m : model E L P S Sh Sg) l, uncached m ->
  forall m1 a e, In (m1, a, Some e) (history sg_eqb sh_eqb shape_of fewer ready1 compile1 m l) ->
  with_pars e = pars m1 /\ with_sts e = sts m1 /\ asked a (quantity e).
Proof. exact current_values. Qed.

(** ... which are those last handed over by compiling, training, loading or setting them *)
Theorem C35_up_to_date {E L P S Sh Sg} : forall sg_eqb sh_eqb shape_of fewer ready1 compile1 (m : model E L P S Sh Sg) l, uncached m ->
  up_to_date (pars m) (sts m) (map (fun x => (snd (fst x), snd x)) (history sg_eqb sh_eqb shape_of fewer ready1 compile1 m l)).
Proof. intros. apply history_vals. intros m1 a e Hin. destruct (current_values _ _ _ _ _ _ m l H m1 a e Hin) as (A & B & _). auto. Qed.

(** evaluation uses the current modules, if modules are recompiled, given new
    hyper-parameters or changed in place only before the first evaluation after a
    reset (or these leave the modules as they are) *)
Theorem C35_current_partial {E L P S Sh Sg} : forall sg_eqb sh_eqb shape_of fewer ready1 compile1 (m : model E L P S Sh Sg) l, uncached m ->
  careful sg_eqb sh_eqb shape_of fewer ready1 compile1 false m l ->
  forall m1 a e, In (m1, a, Some e) (history sg_eqb sh_eqb shape_of fewer ready1 compile1 m l) ->
  used e = mods m1 /\ with_pars e = pars m1 /\ with_sts e = sts m1 /\ asked a (quantity e).
Proof. exact careful_current. Qed.

(** an evaluation or a training is answered exactly when the model has modules, all
    of them ready, knows its shapes and the input has the input shape *)
Theorem C35_answered {E L P S Sh Sg} : forall sg_eqb sh_eqb shape_of fewer ready1 compile1 (m : model E L P S Sh Sg) l, uncached m ->
  forall m1 a r sg, In (m1, a, r) (history sg_eqb sh_eqb shape_of fewer ready1 compile1 m l) ->
  (exists o, a = Call o sg) \/ (exists f o, a = GradIn f o sg) \/ (exists f o, a = GradPar f o sg) \/ (exists p s, a = Train sg p s) ->
  ((exists e, r = Some e) <->
   mods m1 <> [] /\ (forall x, In x (mods m1) -> ready1 x = true) /\ (exists i o, in_shape m1 = Some i /\ out_shape m1 = Some o /\ sh_eqb i (shape_of sg) = true)).
Proof.
  intros sg_eqb sh_eqb shape_of fewer ready1 compile1 m l HU m1 a r sg Hin Ha.
  destruct (history_inv sg_eqb sh_eqb shape_of fewer ready1 compile1 l m (uncached_sinv _ m _ _ HU) m1 a r Hin) as [HI ->].
  rewrite <- (step_answered sg_eqb sh_eqb shape_of fewer ready1 compile1 m1 a sg HI Ha). apply (verify_fit sh_eqb shape_of ready1 m1 sg).
Qed.

(** *** modules like Einsum (reads the compiled input shape when the function is
    built) with a setting read when the function is traced *)
Definition x_shape (sg : nat * nat) : nat := fst sg.
Definition x_sgeq (a b : nat * nat) : bool := (Nat.eqb (fst a) (fst b) && Nat.eqb (snd a) (snd b))%bool.
Definition x_ready (m : modl nat nat) : bool := negb (Nat.eqb (fst m) 0).
Definition x_compile : compiler nat nat nat := mk_compiler
  (fun m s => if (Nat.ltb 8 s) then (m, Err ValueError) else ((s, snd m), Ok (s + 1))) (fun _ s => Ok (s + 1)) (fun s => negb (Nat.eqb s 0)).
Definition x_hist := history (P := nat) (S := nat) x_sgeq Nat.eqb x_shape Nat.ltb x_ready x_compile.
Definition x_model : model nat nat nat nat nat (nat * nat) :=
  mk_model true [(0, 7); (0, 5)] 0 0 None None [] None None None None None None.
Definition one : opts := (None, false).
Definition x_good : list (action nat nat nat nat nat (nat * nat)) :=
  [Compile 2 10 0; Call one (2, 32); SetParams 11; Call one (2, 32); GradIn None one (2, 32); GradPar (Some true) (Some 4, true) (2, 64);
   Train (2, 32) 12 1; Call (Some 4, true) (2, 64); Edit [(0, 9)]; Compile 3 13 0; Call one (3, 32); GradIn (Some false) one (3, 32)].
Example C35_ex_hyps : uncached x_model /\ careful x_sgeq Nat.eqb x_shape Nat.ltb x_ready x_compile false x_model x_good.
Proof. split; [repeat split|]. unfold x_good. vm_compute. repeat split; intros; try reflexivity; discriminate. Qed.
Example C35_ex_events : map (fun x => snd x) (x_hist x_model x_good) =
  [None; Some (mk_event Value [(2, 7); (3, 5)] 10 0); None; Some (mk_event Value [(2, 7); (3, 5)] 11 0);
   Some (mk_event (GradInput true) [(2, 7); (3, 5)] 11 0); Some (mk_event (GradParams true) [(2, 7); (3, 5)] 11 0);
   Some (mk_event Value [(2, 7); (3, 5)] 11 0); Some (mk_event Value [(2, 7); (3, 5)] 12 1); None; None;
   Some (mk_event Value [(3, 9)] 13 0); Some (mk_event (GradInput false) [(3, 9)] 13 0)].
Proof. vm_compute. reflexivity. Qed.

(** recompiling a SequentialModel for another shape keeps the old function *)
Theorem C35_recompile_refuted : exists l m1 a e, In (m1, a, Some e) (x_hist x_model l) /\ used e <> mods m1 /\
  l = [Compile 2 10 0; Call one (2, 32); Compile 4 10 0; Call one (4, 32)].
Proof. exists [Compile 2 10 0; Call one (2, 32); Compile 4 10 0; Call one (4, 32)]. eexists _, _, _. split; [right; right; right; left; vm_compute; reflexivity|]. split; [vm_compute; discriminate|reflexivity]. Qed.
(** replacing the modules through set_hyperparameters keeps the old function *)
Theorem C35_set_hyperparameters_refuted : exists l m1 a e, In (m1, a, Some e) (x_hist x_model l) /\ used e <> mods m1 /\
  l = [Compile 2 10 0; Call one (2, 32); SetHyper (Some [(2, 1); (3, 1)]) (Some 2) (Some 4); Call one (2, 32)].
Proof. exists [Compile 2 10 0; Call one (2, 32); SetHyper (Some [(2, 1); (3, 1)]) (Some 2) (Some 4); Call one (2, 32)]. eexists _, _, _. split; [right; right; right; left; vm_compute; reflexivity|]. split; [vm_compute; discriminate|reflexivity]. Qed.
(** changing a setting of a module in place, even followed by compile, keeps the old trace *)
Theorem C35_in_place_refuted : exists l m1 a e, In (m1, a, Some e) (x_hist x_model l) /\ used e <> mods m1 /\
  l = [Compile 2 10 0; Call one (2, 32); Mutate 1 (3, 6); Compile 2 10 0; Call one (2, 32)].
Proof. exists [Compile 2 10 0; Call one (2, 32); Mutate 1 (3, 6); Compile 2 10 0; Call one (2, 32)]. eexists _, _, _. split; [right; right; right; right; left; vm_compute; reflexivity|]. split; [vm_compute; discriminate|reflexivity]. Qed.

(** *** C59: a compilation that raises *)
(** a SequentialModel that was not compiled before does not become ready, unless
    all that is wrong is that the output has no axes *)
Theorem C59_sequential_partial {E L P S Sh Sg} : forall (sh_eqb : Sh -> Sh -> bool) (ready1 : modl E L -> bool) compile1 (m m' : model E L P S Sh Sg) s p st e,
  sequential m = true -> out_shape m = None -> compile sh_eqb ready1 compile1 m s p st = (m', Err e) ->
  is_ready ready1 m' = false \/ (exists out, out_shape m' = Some out /\ enough compile1 out = false).
Proof.
  intros sh_eqb ready1 compile1 m m' s p st e Hs Ho H. unfold compile in H. rewrite Hs in H. cbn [negb andb] in H.
  destruct (compile_mods compile1 (mods m) s) as [ms [out|e0]].
  - destruct (enough compile1 out) eqn:Ee; [discriminate|]. injection H as <- _. right. exists out. split; [reflexivity|exact Ee].
  - injection H as <- _. left. unfold is_ready. cbn [set_shapes out_shape]. rewrite Ho. apply andb_false_r.
Qed.
(** a NonSequentialModel of modules that were not ready before does not become
    ready, if no module becomes ready by a compilation that raises *)
Theorem C59_graph_partial {E L P S Sh Sg} : forall (sh_eqb : Sh -> Sh -> bool) (ready1 : modl E L -> bool) compile1 (m m' : model E L P S Sh Sg) s p st e,
  sequential m = false -> (forall x, In x (mods m) -> ready1 x = false) ->
  (forall x s' x' e', ready1 x = false -> compile_one compile1 x s' = (x', Err e') -> ready1 x' = false) ->
  compile sh_eqb ready1 compile1 m s p st = (m', Err e) -> is_ready ready1 m' = false.
Proof.
  intros sh_eqb ready1 compile1 m m' s p st e Hs Hr Hc H.
  assert (U : forall m1 : model E L P S Sh Sg, (mods m1 = [] \/ exists x, In x (mods m1) /\ ready1 x = false) -> is_ready ready1 m1 = false).
  { intros m1 [A|(x & A & B)]; unfold is_ready; [rewrite A; reflexivity|]. replace (forallb ready1 (mods m1)) with false; [rewrite andb_false_r; reflexivity|].
    symmetry. apply not_true_is_false. intros C. rewrite forallb_forall in C. rewrite (C x A) in B. discriminate. }
  assert (V : mods m = [] \/ exists x, In x (mods m) /\ ready1 x = false) by (destruct (mods m) as [|x l] eqn:Em; [left; reflexivity|right; exists x; split; [left; reflexivity|apply Hr; left; reflexivity]]).
  unfold compile in H. rewrite (U m V), andb_false_r, Hs in H.
  destruct (shape_mods compile1 (mods m) s) as [[ss out]|e0]; [|injection H as <- _; apply U; exact V].
  destruct (negb (enough compile1 out)); [injection H as <- _; apply U; exact V|].
  destruct (compile_for compile1 (mods m) ss) as [ms r] eqn:Ef. injection H as <- ->. apply U. right. cbn [set_vals set_mods mods]. clear U V.
  revert ss ms Hr Ef. induction (mods m) as [|x l IH]; intros ss ms Hr Ef; [discriminate|]. destruct ss as [|s0 ss]; [discriminate|]. cbn [compile_for] in Ef.
  destruct (compile_one compile1 x s0) as [x' [s1|e1]] eqn:E1.
  - destruct (compile_for compile1 l ss) as [ms' r'] eqn:E2. injection Ef as <- ->. destruct (IH ss ms' (fun y Hy => Hr y (or_intror Hy)) E2) as (y & Hy & Ry). exists y. split; [right; exact Hy|exact Ry].
  - injection Ef as <- _. exists x'. split; [left; reflexivity|]. exact (Hc x s0 x' e1 (Hr x (or_introl eq_refl)) E1).
Qed.
(** a NonSequentialModel that is ready is not touched *)
Theorem C59_ready_graph {E L P S Sh Sg} : forall (sh_eqb : Sh -> Sh -> bool) (ready1 : modl E L -> bool) compile1 (m m' : model E L P S Sh Sg) s p st e,
  sequential m = false -> is_ready ready1 m = true -> compile sh_eqb ready1 compile1 m s p st = (m', Err e) -> m' = m.
Proof. intros sh_eqb ready1 compile1 m m' s p st e Hs Hr H. unfold compile in H. rewrite Hs, Hr in H. cbn [negb andb] in H. injection H as <- _. reflexivity. Qed.
Example C59_ex : snd (compile Nat.eqb x_ready x_compile x_model 8 10 0) = Err RuntimeError /\
  is_ready x_ready (fst (compile Nat.eqb x_ready x_compile x_model 8 10 0)) = false.
Proof. split; vm_compute; reflexivity. Qed.
Definition x_graph : model nat nat nat nat nat (nat * nat) :=
  mk_model false [(0, 7); (0, 5)] 0 0 None None [] None None None None None None.
Example C59_graph_ex : (forall x, In x (mods x_graph) -> x_ready x = false) /\
  (forall x s' x' e', x_ready x = false -> compile_one x_compile x s' = (x', Err e') -> x_ready x' = false) /\
  snd (compile Nat.eqb x_ready x_compile x_graph 8 10 0) = Err RuntimeError /\ mods (fst (compile Nat.eqb x_ready x_compile x_graph 8 10 0)) = [(8, 7); (0, 5)].
Proof.
  split; [intros x [ <- | [ <- | [] ] ]; reflexivity|]. split; [|split; vm_compute; reflexivity].
  intros x s' x' e' R E. unfold x_compile in E. cbn [compile_one] in E. destruct (Nat.ltb 8 s'); [injection E as <- _; exact R|discriminate].
Qed.
(** a compiled SequentialModel whose recompilation fails half way stays ready, with
    the first module compiled for the new shape and the second for the old one *)
Theorem C59_refuted : exists (m m' : model nat nat nat nat nat (nat * nat)) e,
  is_ready x_ready m = true /\ compile Nat.eqb x_ready x_compile m 8 11 0 = (m', Err e) /\
  is_ready x_ready m' = true /\ mods m = [(2, 7); (3, 5)] /\ mods m' = [(8, 7); (3, 5)] /\ in_shape m' = Some 8 /\ out_shape m' = Some 4.
Proof.
  exists (fst (compile Nat.eqb x_ready x_compile x_model 2 10 0)). eexists _, _. split; [vm_compute; reflexivity|]. split; [vm_compute; reflexivity|].
  repeat split; vm_compute; reflexivity.
Qed.
(** Shapes as lists of sizes; an activation is always ready and keeps the shape.
    Compiling a new model of it for data without further axes raises, and the model
    is ready and answers nevertheless; so for both kinds of models. *)
Definition a_compile : compiler unit unit (list nat) :=
  mk_compiler (fun m s => (m, Ok s)) (fun _ s => Ok s) (fun s => Nat.leb 1 (length s)).
Definition l_eqb (a b : list nat) : bool := if list_eq_dec Nat.eq_dec a b then true else false.
Theorem C59_no_axes_refuted : forall seq, let m := mk_model (P := nat) (S := nat) (Sg := list nat) seq [(tt, tt)] 0 0 None None [] None None None None None None in
  let r := compile l_eqb (fun _ => true) a_compile m [] 10 0 in
  is_ready (fun _ => true) m = false /\ snd r = Err ValueError /\ is_ready (fun _ => true) (fst r) = true /\ out_shape (fst r) = Some [] /\
  exists ev, snd (step l_eqb l_eqb (fun s => s) (fun _ _ => false) (fun _ => true) a_compile (fst r) (Call one [])) = Some ev.
Proof. intros [|]; (repeat split; try (vm_compute; reflexivity)); eexists; vm_compute; reflexivity. Qed.
(** A Bias whose parameters were set announces any shape (bias.py) and raises when it
    is compiled for a shape that is not that of its parameters.  A new
    NonSequentialModel of it is ready after that. *)
Definition b_compile : compiler nat unit nat :=
  mk_compiler (fun m s => (m, if Nat.eqb (fst m) s then Ok s else Err ValueError)) (fun _ s => Ok s) (fun s => negb (Nat.eqb s 0)).
Theorem C59_ready_modules_refuted : let m := mk_model (P := nat) (S := nat) (Sg := nat) false [(3, tt)] 0 0 None None [] None None None None None None in
  let r := compile Nat.eqb (fun _ => true) b_compile m 4 10 0 in
  is_ready (fun _ => true) m = false /\ snd r = Err RuntimeError /\ is_ready (fun _ => true) (fst r) = true /\ in_shape (fst r) = Some 4.
Proof. repeat split; vm_compute; reflexivity. Qed.

(** *** C60: the requested differentiation mode *)
(** the first gradient after a reset uses the requested mode *)
Theorem C60_first_partial {E L P S Sh Sg} : forall sg_eqb sh_eqb shape_of fewer ready1 (m : model E L P S Sh Sg) b o sg m' e, uncached m ->
  grad_input sg_eqb sh_eqb shape_of fewer ready1 m (Some b) o sg = (m', Ok e) -> quantity e = GradInput b.
Proof.
  intros sg_eqb sh_eqb shape_of fewer ready1 m b o sg m' e (_ & _ & A & B & _) H. unfold grad_input in H.
  destruct (verify sh_eqb shape_of ready1 m sg); [|discriminate]. unfold grad_slots in H. rewrite A, B in H. cbn [build snd fst] in H.
  unfold exec in H. cbn [store] in H. rewrite nth_error_app2, Nat.sub_diag in H by lia. cbn [nth_error] in H.
  destruct (snd o); cbn in H; injection H as _ <-; reflexivity.
Qed.
(** so does one directly after a gradient with other batching options, whatever happened before *)
Theorem C60_other_options_partial {E L P S Sh Sg} : forall sg_eqb sh_eqb shape_of fewer ready1 compile1 (m : model E L P S Sh Sg) l o0 o sg0 sg b f e0 e, uncached m -> o0 <> o ->
  let m1 := after sg_eqb sh_eqb shape_of fewer ready1 compile1 m l in
  let go := step sg_eqb sh_eqb shape_of fewer ready1 compile1 in
  (snd (go m1 (GradIn f o0 sg0)) = Some e0 -> snd (go (fst (go m1 (GradIn f o0 sg0))) (GradIn (Some b) o sg)) = Some e -> quantity e = GradInput b) /\
  (snd (go m1 (GradPar f o0 sg0)) = Some e0 -> snd (go (fst (go m1 (GradPar f o0 sg0))) (GradPar (Some b) o sg)) = Some e -> quantity e = GradParams b).
Proof.
  intros sg_eqb sh_eqb shape_of fewer ready1 compile1 m l o0 o sg0 sg b f e0 e HU Hne m1 go.
  assert (HD : dir m1) by (apply after_dir, uncached_dir, HU). split; intros H0 H.
  - destruct (held sg_eqb sh_eqb shape_of fewer ready1 compile1 m1 (GradIn f o0 sg0) o0 sg0 e0 H0 HD) as (_ & K & _). destruct (K f eq_refl) as (r & Hr).
    refine (fresh_mode_in sg_eqb sh_eqb shape_of fewer ready1 compile1 _ b o sg e _ _ H); [apply step_dir, HD|]. intros o1 r1 E1. unfold go in E1. rewrite Hr in E1. congruence.
  - destruct (held sg_eqb sh_eqb shape_of fewer ready1 compile1 m1 (GradPar f o0 sg0) o0 sg0 e0 H0 HD) as (_ & _ & K). destruct (K f eq_refl) as (r & Hr).
    refine (fresh_mode_par sg_eqb sh_eqb shape_of fewer ready1 compile1 _ b o sg e _ _ H); [apply step_dir, HD|]. intros o1 r1 E1. unfold go in E1. rewrite Hr in E1. congruence.
Qed.
Example C60_ex_options : map (fun x => option_map quantity (snd x))
  (x_hist x_model [Compile 2 10 0; GradIn (Some false) one (2, 32); GradIn (Some true) (Some 4, false) (2, 32); GradIn (Some false) (Some 4, true) (2, 32)]) =
  [None; Some (GradInput false); Some (GradInput true); Some (GradInput false)].
Proof. vm_compute. reflexivity. Qed.
(** later, another mode is ignored unless the batching options change as well *)
Theorem C60_refuted : exists l m1 e, In (m1, GradIn (Some true) one (2, 32), Some e) (x_hist x_model l) /\ quantity e = GradInput false.
Proof.
  exists [Compile 2 10 0; GradIn (Some false) one (2, 32); GradIn (Some true) one (2, 32)]. eexists _, _.
  split; [right; right; left; vm_compute; reflexivity|reflexivity].
Qed.

Print Assumptions C35_values. Print Assumptions C35_up_to_date. Print Assumptions C35_current_partial. Print Assumptions C35_recompile_refuted. Print Assumptions C35_set_hyperparameters_refuted.
Print Assumptions C35_in_place_refuted. Print Assumptions C59_sequential_partial. Print Assumptions C59_graph_partial. Print Assumptions C59_ready_graph. Print Assumptions C59_refuted. Print Assumptions C59_no_axes_refuted. Print Assumptions C59_ready_modules_refuted. Print Assumptions C60_first_partial. Print Assumptions C60_refuted. Print Assumptions C35_answered. Print Assumptions C60_other_options_partial.
