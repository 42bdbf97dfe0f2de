From Coq Require Import Arith Permutation.
From Verif Require Import Base BaseLemmas TreeUtil TreeSpec TreeProofs MutableProofs NonSeqSpec NonSeqProofs NdArray Serial SerialSpec SerialProofs Scaler ScalerProofs
  EigenProofs TrainArgs TrainArgsProofs Reshape ReshapeSpec ReshapeProofs ReshapeMain Einsum EinsumProofs EinsumMain ReshapeSpec Layers LayersSpec LayersProofs LayersMain.
Local Open Scope list_scope.
Local Open Scope nat_scope.

Section More.
Context {V : Type} (zero : V) (isrealobj : arr V -> bool).

(* ------------------------------------------------------------------ *)
(** * Constant *)
Lemma jmap_total {X Y} (f : X -> Y) t v : jmapM (fun x => Ok (f x)) t = Ok v -> trel (fun x y => y = f x) t v.
Proof.
  intros E. destruct (jm_trel (fun x => Ok (f x)) eq (fun x y => y = f x) t) with (u := t) as (u & E' & T).
  - intros x y _ <-. eauto.
  - apply trel_refl.
  - rewrite E in E'. injection E' as <-. exact T.
Qed.
Definition flag_wf (r : rflag) : Prop := match r with RTree t => wf_tree t | _ => True end.
Definition given_value (g : given) (c : tree (arr V)) : Prop :=
  match g with GNone => True | GNum v => c = Leaf (mk_arr [] [v]) | GTree t => c = t end.

Lemma const_given c train shape real m : wf_tree c ->
  (let* expected := jmapM (fun x => Ok (shp x)) c in
   let* shape := match shape with Some s => if tree_eqb same_shape expected s then Ok s else Err ValueError | None => Ok expected end in
   let* real := match real with RNone => jmapM (fun x => Ok (isrealobj x)) c | RBool b => jmapM (fun _ => Ok b) c | RTree t => Ok t end in
   let* _ := jzipM (fun x r => if r && negb (isrealobj x) then Err ValueError else Ok tt) c real in
   Ok (mk_constant (Some c) train (Some shape) (RTree real))) = Ok m ->
  k_val m = Some c /\ exists S, k_shape m = Some S /\ trel (fun s (a : arr V) => shp a = s) S c.
Proof.
  intros W E. apply rbind_ok in E as (ex & E1 & E). apply rbind_ok in E as (S & E2 & E). apply rbind_ok in E as (r & _ & E). apply rbind_ok in E as (u & _ & E). injection E as <-.
  split; [reflexivity|]. exists S. split; [reflexivity|]. apply jmap_total in E1.
  assert (T : trel eq ex S).
  { destruct shape as [s|]; [|injection E2 as <-; apply trel_refl]. destruct (tree_eqb same_shape ex s) eqn:Q; [|discriminate]. injection E2 as <-.
    eapply eqb_trel; [intros x y H; apply same_shape_eq; exact H| |exact Q]. eapply trel_wf; [exact E1|exact W]. }
  apply trel_flip. eapply trel_comp; [|exact E1|exact T]. cbn. congruence.
Qed.

Theorem constant_repeats draw g train shape real m m' shapes n (data : tree (arr V)) :
  (forall t, g = GTree t -> wf_tree t) -> (forall s, shape = Some s -> wf_tree s) -> flag_wf real -> (forall s r, shp (draw s r) = s) ->
  constant_new isrealobj g train shape real = Ok m -> constant_compile draw m shapes = Ok m' ->
  (exists s, has_leaf shapes s) -> trel (batch_of n) shapes data ->
  exists c S out, k_val m' = Some c /\ given_value g c /\ constant_shape m' shapes = Some S /\
    constant_call zero c data = Ok out /\ trel (batch_of n) S out /\
    forall ks a, leaf_at c ks a -> exists y, leaf_at out ks y /\ shp y = n :: shp a /\
      forall i idx, valid (shp y) (i :: idx) -> entry zero y (i :: idx) = entry zero a idx.
Proof.
  intros Wg Ws Wr D N C (s0 & Hs0) T.
  assert (K : exists c S, k_val m' = Some c /\ given_value g c /\ k_shape m' = Some S /\ trel (fun s (a : arr V) => shp a = s) S c /\ wf_tree c).
  { destruct g as [|v|t]; cbn [constant_new] in N.
    - destruct shape as [s|].
      + specialize (Ws s eq_refl). apply rbind_ok in N as (r & E & N). injection N as <-. unfold constant_compile in C. cbn [k_val k_train k_shape k_real] in C.
        destruct train; [|discriminate]. cbn [negb] in C. apply rbind_ok in C as (rt & E2 & C). apply rbind_ok in C as (c & E3 & C). injection C as <-. cbn [k_val k_shape].
        assert (Wrt : wf_tree rt).
        { destruct r as [|b|t0]; [discriminate| |].
          - apply jmap_total in E2. eapply trel_wf; [exact E2|exact Ws].
          - injection E2 as <-. destruct real as [|b|t1].
            + apply rbind_ok in E as (w & E & E'). injection E' as <-. apply jmap_total in E. eapply trel_wf; [exact E|exact Ws].
            + discriminate.
            + injection E as <-. exact Wr. }
        pose proof (jzip_inv _ _ _ _ Ws Wrt E3) as T3.
        destruct (jzip3 (fun s r => Ok (draw s r)) eq (fun _ _ => True) (fun s a => shp a = s) s Ws) with (u := s) (p := rt) as (v & E4 & T4).
        { intros x y q _ <- _. exists (draw x q). split; [reflexivity|apply D]. }
        { apply trel_refl. }
        { eapply trel_impl; [|exact T3]. auto. }
        rewrite E3 in E4. injection E4 as <-. exists c, s. split; [reflexivity|]. split; [exact I|]. split; [reflexivity|]. split; [exact T4|]. eapply trel_wf; [exact T4|exact Ws].
      + destruct train; [discriminate|]. injection N as <-. discriminate.
    - assert (W : wf_tree (Leaf (mk_arr [] [v]))) by constructor. apply (const_given _ train shape real m W) in N as (E1 & S & E2 & TS).
      unfold constant_compile in C. rewrite E1 in C. injection C as <-. exists (Leaf (mk_arr [] [v])), S. cbn [given_value]. auto 10.
    - specialize (Wg t eq_refl). apply (const_given _ train shape real m Wg) in N as (E1 & S & E2 & TS).
      unfold constant_compile in C. rewrite E1 in C. injection C as <-. exists t, S. cbn. auto 10. }
  destruct K as (c & S & E1 & G & E2 & TS & Wc). exists c, S.
  destruct (has_leaf_leaves _ _ _ _ T Hs0) as (x & l & EL).
  assert (Hx : leading x = Some n). { eapply batch_leading; [exact T|]. apply leaves_has_leaf. rewrite EL. left. reflexivity. }
  unfold constant_call. rewrite EL. unfold leading in Hx. destruct (shp x) as [|n' s']; [discriminate|]. injection Hx as ->.
  destruct (jm_trel (fun a => Ok (repeated zero n a)) eq (fun a y => y = repeated zero n a) c) with (u := c) as (out & -> & TO).
  { intros a b _ <-. eauto. } { apply trel_refl. }
  cbn [rbind]. assert (TB : trel (batch_of n) S out).
  { eapply trel_comp; [|exact TS|exact TO]. cbn. intros s a y Ha ->. unfold batch_of, repeated. cbn. congruence. }
  rewrite (check_batch_rel n _ _ _ _ T TB). cbn [rbind]. exists out. split; [exact E1|]. split; [exact G|]. split; [exact E2|]. split; [reflexivity|]. split; [exact TB|].
  intros ks a Ha. destruct (trel_walk _ ks _ _ (trel_wf _ _ _ TO Wc) TO a Ha) as (y & Hy & ->). exists (repeated zero n a). split; [exact Hy|]. split; [reflexivity|].
  intros i idx Hv. apply repeated_entry. exact Hv.
Qed.

(* ------------------------------------------------------------------ *)
(** * PReLU *)
Context (mul : V -> V -> V) (nonneg : V -> bool).

(** A use of a PReLU module; an operation that fails leaves it as it was. *)
Inductive pop := PCompile (draw : list nat -> arr V) (s : tree (list nat)) | PSet (p : tree (arr V)).
Definition pstep (m : prelu) (o : pop) : prelu :=
  match (match o with PCompile draw s => prelu_compile draw m s | PSet p => prelu_set_params m p end) with Ok m' => m' | Err _ => m end.
Definition sound_op (o : pop) : Prop :=
  match o with PCompile draw s => (forall s, shp (draw s) = s) /\ wf_tree s | PSet p => wf_tree p end.

Definition prelu_inv (m : prelu) : Prop :=
  forall s, p_in m = Some s -> wf_tree s /\ exists p, p_a m = Some p /\ wf_tree p /\
    if p_single m then exists a, first_of p = Ok a /\ shp a = [1] /\ the_slope zero p (hd zero (dat a)) else trel (fun s (a : arr V) => shp a = s) s p.

Lemma single_slope (p : tree (arr V)) n a : len_of p = Ok n -> n = 1 -> first_of p = Ok a -> shp a = [1] -> the_slope zero p (hd zero (dat a)).
Proof.
  intros L -> F S. destruct p as [b| |d|l|l]; cbn in L, F.
  - unfold the_slope. destruct (shp b) as [|m s] eqn:E; [discriminate|]. injection L as ->. injection F as <-. cbn [shp] in S. subst s.
    exists b. split; [auto|]. rewrite E. split; [reflexivity|]. cbn. destruct (dat b); reflexivity.
  - discriminate.
  - discriminate.
  - destruct l as [|[b| | | |] l]; try discriminate. injection F as ->. injection L as L. destruct l; [|discriminate]. exists a. rewrite S. auto.
  - destruct l as [|[b| | | |] l]; try discriminate. injection F as ->. injection L as L. destruct l; [|discriminate]. exists a. rewrite S. auto.
Qed.

Lemma pstep_inv m o : sound_op o -> prelu_inv m -> prelu_inv (pstep m o).
Proof.
  intros SO I. unfold pstep. destruct o as [draw s|p].
  - destruct (prelu_compile draw m s) as [m'|] eqn:E; [|exact I]. unfold prelu_compile in E. destruct (prelu_ready m) as [[p0 s0]|].
    + destruct (tree_eqb same_shape s0 s); [|discriminate]. injection E as <-. exact I.
    + destruct SO as [D W]. apply rbind_ok in E as (a & E & E'). injection E' as <-. intros s' Es. cbn [p_in p_a p_single] in *. injection Es as <-. split; [exact W|].
      exists a. split; [reflexivity|]. destruct (p_single m).
      * injection E as <-. split; [repeat constructor|]. exists (draw [1]). split; [reflexivity|]. split; [apply D|]. exists (draw [1]). rewrite D. auto.
      * split; [eapply trel_wf; [eapply drawn_fits; eauto|exact W]|eapply drawn_fits; eauto].
  - destruct (prelu_set_params m p) as [m'|] eqn:E; [|exact I]. unfold prelu_set_params in E. apply rbind_ok in E as (u & E & E'). injection E' as <-.
    intros s Es. cbn [p_in p_a p_single] in *. destruct (I s Es) as (W & p0 & Ep & Wp0 & H). split; [exact W|]. exists p. split; [reflexivity|]. split; [exact SO|].
    unfold prelu_ready in E. rewrite Ep, Es in E. destruct (p_single m).
    + apply rbind_ok in E as (n & En & E). destruct (Nat.eqb_spec n 1) as [Hn|]; [|discriminate]. cbn [negb] in E. apply rbind_ok in E as (a & Ea & E).
      destruct (same_shape (shp a) [1]) eqn:Q; [|discriminate]. apply same_shape_eq in Q. exists a. split; [exact Ea|]. split; [exact Q|]. eapply single_slope; eauto.
    + destruct (negb (same_struct p s)); [discriminate|]. apply rbind_ok in E as (z & E & _). eapply check_fits; eauto.
Qed.
Lemma history_inv ops : forall m, Forall sound_op ops -> prelu_inv m -> prelu_inv (fold_left pstep ops m).
Proof. induction ops as [|o ops IH]; intros m F I; [exact I|]. inversion F; subst. cbn. apply IH; auto. apply pstep_inv; auto. Qed.
Lemma pstep_single m o : p_single (pstep m o) = p_single m.
Proof.
  unfold pstep. destruct o as [draw s|p].
  - unfold prelu_compile. destruct (prelu_ready m) as [[p0 s0]|]; [destruct (tree_eqb same_shape s0 s); reflexivity|].
    destruct (p_single m) eqn:E; [cbn; auto|]. destruct (jmapM _ s); cbn; auto.
  - destruct (prelu_set_params m p) as [m'|] eqn:E; [|reflexivity]. unfold prelu_set_params in E. apply rbind_ok in E as (u & _ & E). injection E as <-. reflexivity.
Qed.
Lemma history_single ops : forall m, p_single (fold_left pstep ops m) = p_single m.
Proof. induction ops as [|o ops IH]; intros m; [reflexivity|]. cbn. rewrite IH. apply pstep_single. Qed.

Theorem prelu_acts single ops s n (data : tree (arr V)) : Forall sound_op ops ->
  let m := fold_left pstep ops (prelu_new single) in
  p_in m = Some s -> trel (batch_of n) s data ->
  exists p out, p_a m = Some p /\ prelu_call zero mul nonneg m p data = Ok out /\ trel (batch_of n) (prelu_shape s) out /\
    pointwise zero data out (fun ks idx x y => exists v, (if single then the_slope zero p v else exists a, leaf_at p ks a /\ v = entry zero a idx) /\
      y = if nonneg x then x else mul v x).
Proof.
  intros F m Es T. assert (I : prelu_inv m). { apply history_inv; [exact F|]. intros s' E. discriminate. }
  destruct (I s Es) as (W & p & Ep & Wp & H). exists p. unfold prelu_call. assert (ES : p_single m = single) by apply history_single. rewrite ES in H |- *.
  destruct single.
  - destruct H as (a & Ea & Sa & SL). rewrite Ea. cbn [rbind]. unfold leaky.
    destruct (map_act zero (fun x a => if nonneg x then x else mul a x) n s data (squeeze a) W T) as (out & E & TO & H).
    { intros s' _. right. unfold squeeze. rewrite Sa. reflexivity. }
    exists out. split; [exact Ep|]. split; [exact E|]. split; [exact TO|]. intros ks x Hx. destruct (H ks x Hx) as (y & Hy & A1 & A2). exists y. split; [exact Hy|]. split; [exact A1|].
    intros i idx Hv. exists (hd zero (dat a)). split; [exact SL|]. cbn [fst snd] in A2. rewrite (A2 i idx Hv). unfold everywhere, squeeze. rewrite Sa. reflexivity.
  - destruct (zip_act zero (fun x a => if nonneg x then x else mul a x) n s data p W T H) as (out & E & TO & HA).
    exists out. split; [exact Ep|]. split; [exact E|]. split; [exact TO|]. intros ks x Hx. destruct (HA ks x Hx) as (y & a & Hy & Ha & A1 & A2). exists y. split; [exact Hy|]. split; [exact A1|].
    intros i idx Hv. exists (entry zero a idx). split; [exists a; auto|]. cbn [fst snd] in A2. rewrite (A2 i idx Hv). rewrite full_everywhere; [reflexivity|].
    assert (TP : trel (fun x a => exists s, shp x = n :: s /\ shp a = s) data p) by (eapply trel_join; [|exact T|exact H]; intros s1 x1 a1 B1 A; exists s1; auto).
    destruct (trel_walk _ ks _ _ Wp TP x Hx) as (a' & Ha' & s1 & B1 & B2). unfold leaf_at in *. rewrite Ha in Ha'. injection Ha' as <-. rewrite B2. rewrite B1 in Hv. inversion Hv; subst. assumption.
Qed.

(* ------------------------------------------------------------------ *)
(** * Activations *)
Theorem entrywise_ok (g : V -> V) n shapes (data : tree (arr V)) : wf_tree shapes -> trel (batch_of n) shapes data ->
  (forall a, has_leaf data a -> wf_arr a) ->
  exists out, act_call (entrywise g) data = Ok out /\ trel (batch_of n) (act_shape shapes) out /\ pointwise zero data out (fun _ _ x y => y = g x).
Proof.
  intros W T WA. unfold act_call, entrywise.
  destruct (jm_trel (fun a => Ok (amap g a)) (fun x y => x = y /\ wf_arr x) (fun a y => y = amap g a /\ wf_arr a) data) with (u := data) as (out & -> & TO).
  { intros a b _ [ <- H]. eauto. }
  { apply trel_leaf_prop; [exact WA|]. apply trel_refl. }
  cbn [rbind]. assert (Wd : wf_tree data) by (eapply trel_wf; [exact T|exact W]).
  assert (TB : trel (batch_of n) shapes out).
  { eapply trel_comp; [|exact T|exact TO]. intros s a y B [ -> _]. exact B. }
  rewrite (check_batch_rel n _ _ _ _ T TB). cbn [rbind]. exists out. split; [reflexivity|]. split; [exact TB|].
  intros ks x Hx. destruct (trel_walk _ ks _ _ (trel_wf _ _ _ TO Wd) TO x Hx) as (y & Hy & -> & Wx). exists (amap g x). split; [exact Hy|]. split; [reflexivity|].
  intros i idx Hv. unfold entry, amap. cbn [shp dat]. pose proof (ravel_bound _ _ Hv) as B. unfold wf_arr in Wx. rewrite nth_indep with (d' := g zero) by (rewrite map_length; lia). apply map_nth.
Qed.
End More.
