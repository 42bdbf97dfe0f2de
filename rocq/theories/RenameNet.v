(** Renaming and whole networks. *)
From Verif Require Import Base BaseLemmas TreeUtil TreeSpec TreeProofs Resolve NonSeq NonSeqSpec NonSeqProofs NonSeqRun Connections RenameProofs RenameSpec RenameStr RenameTree RenameExt RenameConn.
Local Open Scope string_scope.
Local Open Scope list_scope.

(** lookup in a tree whose leaves are mapped *)
Lemma getitem_tmap {X Y} (g : X -> Y) sep early : forall (t : tree X) s,
  getitem sep no_leaf early (tmap g t) s = rmap (fun r => (tmap g (fst r), snd r)) (getitem sep no_leaf early t s).
Proof.
  assert (F : forall n (t : tree X) s, getitem_fuel sep no_leaf early n (tmap g t) s = rmap (fun r => (tmap g (fst r), snd r)) (getitem_fuel sep no_leaf early n t s)).
  { induction n as [|n IH]; intros t s; [reflexivity|]. cbn [getitem_fuel no_leaf]. destruct s as [|c s]; [reflexivity|]. remember (String c s) as p. clear Heqp.
    destruct (split1 sep p) as [key rest]. destruct t as [a| |d|l|l]; cbn [tmap].
    - destruct early; reflexivity.
    - destruct early; reflexivity.
    - rewrite dget_tmap. destruct (dget d key); cbn [option_map]; [apply IH|reflexivity].
    - destruct (isdigit key); [|reflexivity]. rewrite nth_error_map. destruct (nth_error l (int_of key)); cbn [option_map]; [apply IH|reflexivity].
    - destruct (isdigit key); [|reflexivity]. rewrite nth_error_map. destruct (nth_error l (int_of key)); cbn [option_map]; [apply IH|reflexivity]. }
  intros t s. apply F.
Qed.
Lemma getitem_okt {X} (P : X -> Prop) sep early (t u : tree X) s r : okt P t -> getitem sep no_leaf early t s = Ok (u, r) -> okt P u.
Proof.
  assert (F : forall n (t : tree X) s r, okt P t -> getitem_fuel sep no_leaf early n t s = Ok (u, r) -> okt P u).
  { induction n as [|n IH]; intros t0 s0 r0 Ht; [discriminate|]. cbn [getitem_fuel no_leaf]. destruct s0 as [|c s0]; [intros E; injection E as <- _; exact Ht|]. remember (String c s0) as p. clear Heqp.
    destruct (split1 sep p) as [key rest]. destruct t0 as [a| |d|l|l].
    - destruct early; [intros E; injection E as <- _; exact Ht|discriminate].
    - destruct early; [intros E; injection E as <- _; exact Ht|discriminate].
    - destruct (dget d key) as [c'|] eqn:E; [|discriminate]. apply IH. eapply okt_dget; eauto.
    - destruct (isdigit key); [|discriminate]. destruct (nth_error l (int_of key)) as [c'|] eqn:E; [|discriminate]. apply IH. inversion Ht as [| | |l0 HF]; subst. rewrite Forall_forall in HF. apply HF. eapply nth_error_In; eauto.
    - inversion Ht. }
  apply F.
Qed.
Lemma tmapM_ext {X X' Y} (P : X -> Prop) (g : X -> X') (F : X -> result (tree Y)) (F' : X' -> result (tree Y)) (t : tree X) :
  (forall x, P x -> F' (g x) = F x) -> okt P t -> tmapM F' (tmap g t) = tmapM F t.
Proof.
  intros H. induction t as [x| |d IH|l IH|l IH] using tree_ind2; intros Ht.
  - inversion Ht; subst. apply H. assumption.
  - reflexivity.
  - cbn [tmap]. rewrite !tmapM_dct. inversion Ht as [| |d0 HF|]; subst. f_equal. induction d as [|[k c] d IHd]; [reflexivity|]. inversion IH; subst. inversion HF; subst. cbn [map tmapM_dict fst snd] in *.
    rewrite H2 by assumption. destruct (tmapM F c); [|reflexivity]. cbn [rbind]. rewrite IHd; [reflexivity|assumption|constructor; assumption|assumption].
  - cbn [tmap]. rewrite !tmapM_lst. inversion Ht as [| | |l0 HF]; subst. f_equal. induction l as [|c l IHl]; [reflexivity|]. inversion IH; subst. inversion HF; subst. cbn [map tmapM_list] in *.
    rewrite H2 by assumption. destruct (tmapM F c); [|reflexivity]. cbn [rbind]. rewrite IHl; [reflexivity|assumption|constructor; assumption|assumption].
  - inversion Ht.
Qed.

(** members of an order *)
Lemma relax_members all nbs : forall d q d' q' x, fold_left (relax all) nbs (d, q) = (d', q') -> In x q' -> In x q \/ In x nbs.
Proof.
  induction nbs as [|v nbs IH]; intros d q d' q' x E Hx; cbn [fold_left] in E; [injection E as <- <-; left; exact Hx|].
  unfold relax in E at 2. destruct (mem_str v all).
  - destruct (_ =? 0)%Z; destruct (IH _ _ _ _ _ E Hx) as [Hq|Hn]; try (apply in_app_or in Hq as [Hq|[<-|[]]]); cbn [In]; auto.
  - destruct (IH _ _ _ _ _ E Hx) as [Hq|Hn]; cbn [In]; auto.
Qed.
Lemma kahn_members g all (I : string -> Prop) : (forall u v, In v (neighbors g u) -> I v) -> forall fuel q d order r, Forall I q -> Forall I order -> kahn g all fuel q d order = Ok r -> Forall I r.
Proof.
  intros Hg. induction fuel as [|n IH]; intros q d order r Hq Ho E; destruct q as [|x q]; cbn [kahn] in E; try discriminate; try (injection E as <-; exact Ho).
  destruct (fold_left (relax all) (neighbors g x) (d, q)) as [d' q'] eqn:F. inversion Hq; subst. eapply IH; [| |exact E].
  - apply Forall_forall. intros y Hy. destruct (relax_members _ _ _ _ _ _ _ F Hy) as [H|H]; [rewrite Forall_forall in *; auto|eauto].
  - apply Forall_app. split; [exact Ho|repeat constructor; assumption].
Qed.

Section Net.
Variable sep : ascii.
Variable uuid : nat -> string.
Variable f : string -> string.
Hypothesis HR : renaming sep f.
Hypothesis Hin : no_sep sep "input" = true.
Hypothesis Hout : no_sep sep "output" = true.
Notation R := (rename_path sep f).
Notation top := (rename_top f).
Notation named := (named sep).

Lemma R_input : R "input" = "input". Proof. apply (R_special sep f HR Hin Hout). auto. Qed.
Lemma R_output : R "output" = "output". Proof. apply (R_special sep f HR Hin Hout). auto. Qed.
Lemma reserved_R p : reserved_name (R p) = reserved_name p.
Proof. unfold reserved_name. rewrite !(eqb_special sep f HR Hin Hout) by auto. reflexivity. Qed.

(** the graph only has named targets *)
Definition gnamed (g : graph) : Prop := Forall (fun kv => Forall named (snd kv)) g.
Lemma gnamed_nb g u v : gnamed g -> In v (neighbors g u) -> named v.
Proof. intros H. unfold neighbors. destruct (dget g u) as [l|] eqn:E; [|intros []]. apply dget_In in E. unfold gnamed in H. rewrite Forall_forall in H. specialize (H _ E). cbn in H. rewrite Forall_forall in H. auto. Qed.
Lemma graph_named {X} (d : dict (tree X)) c g : named_conns sep c -> get_outer_connections sep "input" "output" (Dict d) c = Ok g -> gnamed g.
Proof.
  intros H E. unfold get_outer_connections in E. apply rbind_ok in E as [pc [E1 E2]]. pose proof (partition_named sep Hin Hout d c pc H E1) as N. revert E2.
  apply (rfold_keeps _ gnamed (fun kv => named (fst kv) /\ Forall named (snd kv))); [|exact N|constructor]. intros s [k vs] s' Hs [Hk Hv] E. cbn [fst snd] in *. unfold outer_entry in E.
  apply rbind_ok in E as [sk [_ E]]. apply rbind_ok in E as [os [E3 E]]. injection E as <-. pose proof (unpack_fst_named sep vs os Hv E3) as Ho.
  apply Forall_dset; [exact Hs|]. intros k' ->. cbn [snd]. apply (fold_keeps _ (Forall named) named); [|exact Ho|].
  - intros l x Hl Hx. unfold add_set. destruct (mem_str x l); [exact Hl|]. apply Forall_app. split; [exact Hl|repeat constructor; exact Hx].
  - destruct (dget s sk) as [l|] eqn:G; [|constructor]. apply dget_In in G. unfold gnamed in Hs. rewrite Forall_forall in Hs. exact (Hs _ G).
Qed.
Lemma dmem_graph g : dmem (rename_graph R g) "input" = dmem g "input".
Proof. unfold dmem. rewrite <- R_input at 1. change (rename_graph R g) with (rd sep f (map R) g). rewrite (dget_rd sep f HR). destruct (dget g "input"); reflexivity. Qed.
Theorem order_R {X} (d : dict (tree X)) c : named_conns sep c ->
  get_execution_order sep (top (Dict d)) (rename_conns sep f c) = rmap (map R) (get_execution_order sep (Dict d) c).
Proof.
  intros H. unfold get_execution_order. rewrite (graph_R sep f HR Hin Hout) by exact H. destruct (get_outer_connections sep "input" "output" (Dict d) c) as [g|]; [|reflexivity]. cbn [rmap rbind].
  rewrite dmem_graph. destruct (dmem g "input"); cbn [negb]; [|reflexivity]. pose proof (resolve_rename R (R_inj sep f HR) g "input" "output") as E. rewrite R_input, R_output in E. rewrite E.
  destruct (resolve_connections g "input" "output") as [[o v]|]; reflexivity.
Qed.
Lemma order_named {X} (d : dict (tree X)) c o : named_conns sep c -> get_execution_order sep (Dict d) c = Ok o -> Forall named o.
Proof.
  intros H E. unfold get_execution_order in E. apply rbind_ok in E as [g [E1 E]]. pose proof (graph_named d c g H E1) as G. destruct (negb (dmem g "input")); [discriminate|].
  apply rbind_ok in E as [[o' v] [E2 E]]. injection E as <-. unfold resolve_connections in E2. apply rbind_ok in E2 as [r1 [_ E2]]. apply rbind_ok in E2 as [r2 [_ E2]]. apply rbind_ok in E2 as [o2 [K E2]].
  apply rbind_ok in E2 as [u [_ E2]]. injection E2 as <- _. eapply kahn_members; [intros a b; apply (gnamed_nb g a b G)| | |exact K]; [|constructor]. constructor; [|constructor]. apply (special_named sep Hin Hout). auto.
Qed.
Lemma filter_map {X Y} (h : X -> Y) (p : Y -> bool) l : filter p (map h l) = map h (filter (fun x => p (h x)) l).
Proof. induction l as [|x l IH]; [reflexivity|]. cbn. destruct (p (h x)); cbn; rewrite IH; reflexivity. Qed.
Lemma body_R o : body (map R o) = map R (body o).
Proof. unfold body. rewrite filter_map. f_equal. apply filter_ext. intros p. rewrite reserved_R. reflexivity. Qed.

(** looking up *)
Lemma look_R {X} (il : tree X -> bool) (t : tree X) p : il (top t) = il t -> named p -> look sep il (top t) (R p) = look sep il t p.
Proof. intros H Hp. unfold look. rewrite (get_top sep f HR) by (auto using (named_ne sep)). reflexivity. Qed.
Lemma look_deps {X} (il : tree X -> bool) (t : tree X) dt : il (top t) = il t -> okt named dt -> tmapM (look sep il (top t)) (tmap R dt) = tmapM (look sep il t) dt.
Proof. intros H Hd. apply (tmapM_ext named); [|exact Hd]. intros p Hp. apply look_R; assumption. Qed.
Lemma il_none {X} (t : tree X) : no_leaf (top t) = no_leaf t. Proof. reflexivity. Qed.
Lemma il_data {X} (t : tree X) : shape_leaf_data (top t) = shape_leaf_data t. Proof. destruct t; reflexivity. Qed.
Lemma il_shape {X} (t : tree X) : shape_leaf_shape (top t) = shape_leaf_shape t. Proof. destruct t; reflexivity. Qed.
Lemma slots_R {X} o : @empty_slots sep X (map R o) = rmap top (@empty_slots sep X o).
Proof. unfold empty_slots. apply extend_names; [exact HR|constructor]. Qed.

Lemma deps_R {X} (d : dict (tree X)) c : named_conns sep c ->
  match module_input_dependencies sep uuid (Dict d) c with
  | Ok (ds, od) => Forall (okt named) ds /\ okt named od /\ module_input_dependencies sep uuid (top (Dict d)) (rename_conns sep f c) = Ok (map (tmap R) ds, tmap R od)
  | Err e => module_input_dependencies sep uuid (top (Dict d)) (rename_conns sep f c) = Err e
  end.
Proof.
  intros H. unfold module_input_dependencies. rewrite order_R by exact H. destruct (get_execution_order sep (Dict d) c) as [o|] eqn:E; [|reflexivity]. cbn [rmap rbind]. pose proof (order_named d c o H E) as No.
  pose proof (place_R sep uuid f HR Hin Hout d c H) as P. destruct (place_connections sep uuid "input" "output" (Dict d) c) as [[pl od]|e]; [|rewrite P; reflexivity]. destruct P as (P1 & P2 & P). rewrite P. cbn [rbind].
  rewrite body_R. rewrite (rmapM_sim (look sep no_leaf pl) (look sep no_leaf (top (tmap R pl))) R (tmap R)).
  - destruct (rmapM (look sep no_leaf pl) (body o)) as [ds|] eqn:E2; [|reflexivity]. cbn [rmap rbind]. split; [|auto]. constructor; [constructor|]. eapply (rmapM_keeps _ (fun _ => True)); [| |exact E2].
    + intros p t _ Ep. unfold look in Ep. destruct (getitem sep no_leaf false pl p) as [[u r]|] eqn:G; [|discriminate]. cbn [rmap fst] in Ep. apply Ok_inj in Ep. subst t. exact (getitem_okt named sep false pl u p r P1 G).
    + apply Forall_forall. auto.
  - intros p Hp. rewrite look_R; [|reflexivity|]. 2:{ unfold body in Hp. apply filter_In in Hp as [Hp _]. rewrite Forall_forall in No. auto. }
    unfold look. rewrite getitem_tmap. destruct (getitem sep no_leaf false pl p) as [[u r]|]; reflexivity.
Qed.

Context {A Rng M : Type}.
Variable call : M -> tree A -> tree A -> bool -> tree A -> Rng -> result (tree A * tree A).
Lemma callables_R (d : dict (tree M)) o : Forall named o -> module_callables sep (top (Dict d)) (map R o) = module_callables sep (Dict d) o.
Proof.
  intros No. unfold module_callables. rewrite body_R. rewrite (rmapM_sim (fun p => let* t := look sep no_leaf (Dict d) p in match t with Leaf m => Ok (Some m) | _ => Err AttributeError end) _ R (fun x => x)).
  - destruct (rmapM _ (body o)) as [ms|]; [|reflexivity]. cbn [rmap]. rewrite map_id. reflexivity.
  - intros p Hp. rewrite look_R; [|reflexivity|].
    + destruct (look sep no_leaf (Dict d) p) as [[m| |d'|l|l]|]; reflexivity.
    + unfold body in Hp. apply filter_In in Hp as [Hp _]. rewrite Forall_forall in No. auto.
Qed.

Definition both (x : tree A * tree A) : tree A * tree A := (top (fst x), top (snd x)).
Lemma step_R params training rng acc p m dt : named p -> okt named dt ->
  node_step sep call (top params) training rng (both acc) (R p, (m, tmap R dt)) = rmap both (node_step sep call params training rng acc (p, (m, dt))).
Proof.
  intros Hp Hd. destruct acc as [inter st]. unfold node_step, both at 1. cbn [fst snd]. rewrite reserved_R. destruct (reserved_name p); [reflexivity|].
  rewrite look_deps by (apply il_data || exact Hd). destruct (tmapM _ dt) as [x|]; [|reflexivity]. cbn [rbind]. rewrite !look_R by (reflexivity || exact Hp).
  destruct (look sep no_leaf params p) as [mp|]; [|reflexivity]. cbn [rbind]. destruct (look sep no_leaf st p) as [ms|]; [|reflexivity]. cbn [rbind]. destruct m as [m|]; [|reflexivity].
  destruct (call m mp x training ms rng) as [[out ns]|]; [|reflexivity]. cbn [rbind]. rewrite !(set_top sep f HR) by reflexivity. destruct (setitem sep no_leaf inter p out); [|reflexivity]. cbn [rbind rmap].
  destruct (setitem sep no_leaf st p ns); reflexivity.
Qed.
Lemma combine_map3 {X Y Z X' Z'} (h : X -> X') (k : Z -> Z') (l : list X) (m : list Y) (n : list Z) :
  combine (map h l) (combine m (map k n)) = map (fun x => (h (fst x), (fst (snd x), k (snd (snd x))))) (combine l (combine m n)).
Proof. revert m n. induction l as [|x l IH]; intros [|y m] [|z n]; cbn; try reflexivity. rewrite IH. reflexivity. Qed.
Lemma run_R o cs ds od params data training state rng : Forall named o -> Forall (okt named) ds -> okt named od ->
  nonseq_callable sep call (map R o) cs (map (tmap R) ds) (tmap R od) (top params) data training (top state) rng =
  rmap (fun r => (fst r, top (snd r))) (nonseq_callable sep call o cs ds od params data training state rng).
Proof.
  intros No Nd Nod. unfold nonseq_callable. rewrite slots_R. destruct (@empty_slots sep A o) as [i0|]; [|reflexivity]. cbn [rmap rbind].
  rewrite <- R_input at 1. rewrite (set_top sep f HR) by reflexivity. destruct (setitem sep no_leaf i0 "input" data) as [i1|]; [|reflexivity]. cbn [rmap rbind].
  rewrite combine_map3. change (top i1, top state) with (both (i1, state)).
  rewrite (rfold_sim (node_step sep call params training rng) _ both (fun x => (R (fst x), (fst (snd x), tmap R (snd (snd x)))))).
  - destruct (rfold _ _ _) as [[inter st]|]; [|reflexivity]. cbn [rmap rbind both fst snd]. unfold both. cbn [fst snd]. rewrite look_deps by (apply il_data || exact Nod). destruct (tmapM _ od); reflexivity.
  - intros acc [p [m dt]] Hi. cbn [fst snd]. pose proof (in_combine_l _ _ _ _ Hi) as H1. pose proof (in_combine_r _ _ _ _ Hi) as H2. apply in_combine_r in H2. rewrite Forall_forall in No, Nd. apply step_R; auto.
Qed.
Theorem model_R (d : dict (tree M)) c params data training state rng : named_conns sep c ->
  nonseq_model sep call uuid (top (Dict d)) (rename_conns sep f c) (top params) data training (top state) rng =
  rmap (fun r => (fst r, top (snd r))) (nonseq_model sep call uuid (Dict d) c params data training state rng).
Proof.
  intros H. unfold nonseq_model. rewrite order_R by exact H. destruct (get_execution_order sep (Dict d) c) as [o|] eqn:E; [|reflexivity]. cbn [rmap rbind]. pose proof (order_named d c o H E) as No.
  rewrite callables_R by exact No. destruct (module_callables sep (Dict d) o) as [cs|]; [|reflexivity]. cbn [rbind].
  pose proof (deps_R d c H) as P. destruct (module_input_dependencies sep uuid (Dict d) c) as [[ds od]|e]; [|rewrite P; reflexivity]. destruct P as (P1 & P2 & P). rewrite P. cbn [rbind]. apply run_R; assumption.
Qed.

(** shapes *)
Context {Sh : Type}.
Variable out_shape : M -> tree Sh -> result (tree Sh).
Definition both' (x : tree Sh * tree Sh) : tree Sh * tree Sh := (top (fst x), top (snd x)).
Lemma combine_map2 {X Z X' Z'} (h : X -> X') (k : Z -> Z') (l : list X) (n : list Z) : combine (map h l) (map k n) = map (fun x => (h (fst x), k (snd x))) (combine l n).
Proof. revert n. induction l as [|x l IH]; intros [|z n]; cbn; try reflexivity. rewrite IH. reflexivity. Qed.
Lemma shape_step_R (d : dict (tree M)) acc p dt : named p -> okt named dt ->
  shape_step sep out_shape (top (Dict d)) (both' acc) (R p, tmap R dt) = rmap both' (shape_step sep out_shape (Dict d) acc (p, dt)).
Proof.
  intros Hp Hd. destruct acc as [ins outs]. unfold shape_step, both' at 1. cbn [fst snd]. rewrite reserved_R. destruct (reserved_name p); [reflexivity|].
  rewrite look_deps by (apply il_shape || exact Hd). destruct (tmapM _ dt) as [x|]; [|reflexivity]. cbn [rbind]. rewrite (set_top sep f HR) by apply il_shape. destruct (setitem sep shape_leaf_shape ins p x) as [ins'|]; [|reflexivity]. cbn [rmap rbind].
  rewrite look_R by (reflexivity || exact Hp). destruct (look sep no_leaf (Dict d) p) as [[m| |d'|l|l]|]; try reflexivity. cbn [rbind]. destruct (out_shape m x) as [y|]; [|reflexivity].
  rewrite (set_top sep f HR) by apply il_shape. destruct (setitem sep shape_leaf_shape outs p y); reflexivity.
Qed.
Theorem shapes_R (d : dict (tree M)) c sh : named_conns sep c ->
  model_shapes sep out_shape uuid (top (Dict d)) (rename_conns sep f c) sh =
  rmap (fun r => (top (fst (fst r)), top (snd (fst r)), snd r)) (model_shapes sep out_shape uuid (Dict d) c sh).
Proof.
  intros H. unfold model_shapes. rewrite order_R by exact H. destruct (get_execution_order sep (Dict d) c) as [o|] eqn:E; [|reflexivity]. cbn [rmap rbind]. pose proof (order_named d c o H E) as No.
  pose proof (deps_R d c H) as P. destruct (module_input_dependencies sep uuid (Dict d) c) as [[ds od]|e]; [|rewrite P; reflexivity]. destruct P as (P1 & P2 & P). rewrite P. cbn [rbind].
  unfold shape_progression. rewrite slots_R. destruct (@empty_slots sep Sh o) as [i0|]; [|reflexivity]. cbn [rmap rbind].
  rewrite <- R_input at 1. rewrite (set_top sep f HR) by apply il_shape. destruct (setitem sep shape_leaf_shape i0 "input" sh) as [i1|]; [|reflexivity]. cbn [rmap rbind].
  rewrite combine_map2. change (top i0, top i1) with (both' (i0, i1)). rewrite (rfold_sim (shape_step sep out_shape (Dict d)) _ both' (fun x => (R (fst x), tmap R (snd x)))).
  - destruct (rfold _ _ _) as [[ins outs]|]; [|reflexivity]. cbn [rmap rbind]. unfold both'. cbn [fst snd]. rewrite look_deps by (apply il_shape || exact P2). destruct (tmapM _ od); reflexivity.
  - intros acc [p dt] Hi. cbn [fst snd]. pose proof (in_combine_l _ _ _ _ Hi) as H1. apply in_combine_r in Hi. rewrite Forall_forall in No, P1. apply shape_step_R; auto.
Qed.
End Net.
