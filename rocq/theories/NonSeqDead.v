(** Unconnected modules (C13) and preservation of the state structure (C14). *)
From Verif Require Import Base BaseLemmas TreeUtil TreeSpec TreeProofs ExtendProofs Resolve ResolveSpec
  ResolveProofs Connections ConcretizeSpec ConcretizeProofs ConnSpec ConnProofs PlaceProofs
  NonSeq NonSeqSpec NonSeqProofs NonSeqRun NonSeqNet.
From Coq Require Import Permutation Relations.Operators_Properties.
Local Open Scope string_scope.
Local Open Scope list_scope.

(* ---- node kinds survive writes ---- *)
Lemma dkeys_dset_mem {V} (d : dict V) k v c : dget d k = Some c -> dkeys (dset d k v) = dkeys d.
Proof.
  induction d as [|[k' v'] d IH]; simpl; [discriminate|]. destruct (String.eqb_spec k k') as [->|]; intros H.
  - reflexivity.
  - unfold dkeys in *. simpl. f_equal. apply IH. exact H.
Qed.

(** [ks] stays strictly above the written slot *)
Lemma setp_kind_above {A} ps : forall (t t' u : tree A) v ks e,
  setp t ps v = Ok t' -> walk t ps = Some u -> ps = ks ++ e -> e <> [] ->
  option_map kind_of (walk t' ks) = option_map kind_of (walk t ks).
Proof.
  induction ps as [|k ps IH]; intros t t' u v ks e H Hw E He; [discriminate|].
  destruct ks as [|k2 ks].
  - simpl. f_equal. cbn [setp] in H. destruct (String.eqb k EmptyString && _); [discriminate|].
    cbn [walk] in Hw.
    destruct t as [a| |d|l|l]; try discriminate; simpl child in Hw.
    + destruct (dget d k) as [c|] eqn:Ec; [|discriminate].
      destruct ps; [injection H as <-|apply rbind_ok in H as [c' [_ H]]; injection H as <-];
        simpl; f_equal; eapply dkeys_dset_mem; eauto.
    + destruct (isdigit k); [|discriminate]. destruct ps.
      * destruct (_ <? _)%nat; [|discriminate]. injection H as <-. simpl. f_equal. apply upd_length.
      * destruct (nth_error l (int_of k)); [|discriminate]. apply rbind_ok in H as [c' [_ H]]. injection H as <-.
        simpl. f_equal. apply upd_length.
    + destruct (isdigit k); [|discriminate]. destruct ps; [discriminate|].
      destruct (nth_error l (int_of k)); [|discriminate]. apply rbind_ok in H as [c' [_ H]]. injection H as <-.
      simpl. f_equal. apply upd_length.
  - injection E as <- E. assert (Hps : ps <> []) by (rewrite E; intros E0; apply app_eq_nil in E0 as [_ E0]; contradiction).
    cbn [setp] in H. destruct (String.eqb k EmptyString && _); [discriminate|].
    cbn [walk] in *. destruct t as [a| |d|l|l]; try discriminate; simpl child in *.
    + destruct (dget d k) as [c|] eqn:Ec; [|discriminate]. destruct ps; [congruence|].
      apply rbind_ok in H as [c' [H1 H]]. injection H as <-. simpl. rewrite dget_dset_same. eapply IH; eauto.
    + destruct (isdigit k) eqn:Ek; [|discriminate]. destruct ps; [congruence|].
      destruct (nth_error l (int_of k)) as [c|] eqn:Ec; [|discriminate].
      apply rbind_ok in H as [c' [H1 H]]. injection H as <-. simpl. rewrite Ek.
      rewrite nth_upd_same by (eapply nth_error_lt; eauto). eapply IH; eauto.
    + destruct (isdigit k) eqn:Ek; [|discriminate]. destruct ps; [congruence|].
      destruct (nth_error l (int_of k)) as [c|] eqn:Ec; [|discriminate].
      apply rbind_ok in H as [c' [H1 H]]. injection H as <-. simpl. rewrite Ek.
      rewrite nth_upd_same by (eapply nth_error_lt; eauto). eapply IH; eauto.
Qed.

Section RunKind.
Variable sep : ascii.
Context {A Rng M : Type}.
Variable call : M -> tree A -> tree A -> bool -> tree A -> Rng -> result (tree A * tree A).
Variables (params : tree A) (training : bool) (rng : Rng).

Lemma run_kind nodes : forall inter st inter' st' ks,
  (forall n, In n (map fst nodes) -> clean sep n) ->
  (forall p, In p (map fst nodes) -> reserved_name p = false) ->
  (forall p, In p (map fst nodes) -> diverge (split sep p) ks \/ exists e, e <> [] /\ split sep p = ks ++ e) ->
  rfold (node_step sep call params training rng) (wrap nodes) (inter, st) = Ok (inter', st') ->
  option_map kind_of (walk st' ks) = option_map kind_of (walk st ks).
Proof.
  induction nodes as [|[p [m deps]] nodes IH]; intros inter st inter' st' ks Hc Hr Hk H.
  { injection H as <- <-. reflexivity. }
  cbn [wrap map rfold fst snd] in H. apply rbind_ok in H as [[i1 s1] [Hs H]].
  apply step_ok in Hs as [ind [mp [ms [out [ns [_ [_ [H3 [_ [_ H6]]]]]]]]]]; [|apply Hr; left; reflexivity].
  transitivity (option_map kind_of (walk s1 ks)).
  - eapply IH; [| | |exact H]; intros q Hq; [apply Hc|apply Hr|apply Hk]; right; exact Hq.
  - destruct (Hk p (or_introl eq_refl)) as [Hd|[e [He E]]].
    + f_equal. eapply set_walk_other; [exact H6|exact Hd].
    + apply look_walk in H3; [|apply Hc; left; reflexivity]. rewrite setitem_split in H6.
      eapply setp_kind_above; eauto.
Qed.
End RunKind.

(* ---- the layout of the module tree decides order and dependencies ---- *)
Section Layout.
Context {X Y : Type} (R : X -> tree Y -> Prop).
Hypothesis HR : forall x y, R x y -> exists b, y = Leaf b.

Lemma filled_dget d e k : Forall2 (fun a b => fst a = fst b /\ filled R (snd a) (snd b)) d e ->
  match dget d k, dget e k with
  | Some a, Some b => filled R a b
  | None, None => True
  | _, _ => False
  end.
Proof.
  induction 1 as [|[k1 a] [k2 b] d e [E H] _ IH]; [simpl; auto|]. simpl in *. subst k2.
  destruct (String.eqb k k1); [exact H|exact IH].
Qed.
Lemma filled_nth l m n : Forall2 (filled R) l m ->
  match nth_error l n, nth_error m n with
  | Some a, Some b => filled R a b
  | None, None => True
  | _, _ => False
  end.
Proof. intros H. revert n; induction H as [|a b l m Hab _ IH]; intros [|n]; simpl; auto. apply IH. Qed.

Definition agree (r : result (tree X * list string)) (r' : result (tree Y * list string)) : Prop :=
  match r, r' with
  | Ok (u, p), Ok (u', p') => p = p' /\ filled R u u'
  | Err e, Err e' => e = e'
  | _, _ => False
  end.

Lemma getp_layout ps : forall t u, filled R t u -> agree (getp true t ps) (getp true u ps).
Proof.
  induction ps as [|k ps IH]; intros t u H; [simpl; auto|].
  cbn [getp]. destruct (String.eqb k EmptyString && _); [simpl; auto|].
  inversion H as [x y Hxy| |l m HF|l m HF|d e HF]; subst.
  - destruct (HR _ _ Hxy) as [b ->]. simpl. auto.
  - simpl; auto.
  - destruct (isdigit k); [|simpl; auto]. assert (G := filled_nth _ _ (int_of k) HF).
    destruct (nth_error l (int_of k)), (nth_error m (int_of k)); try tauto; [apply IH; exact G|simpl; auto].
  - destruct (isdigit k); [|simpl; auto]. assert (G := filled_nth _ _ (int_of k) HF).
    destruct (nth_error l (int_of k)), (nth_error m (int_of k)); try tauto; [apply IH; exact G|simpl; auto].
  - assert (G := filled_dget _ _ k HF). destruct (dget d k), (dget e k); try tauto; [apply IH; exact G|simpl; auto].
Qed.

Variable sep : ascii.
Lemma getitem_layout t u p : filled R t u ->
  rmap snd (getitem sep no_leaf true t p) = rmap snd (getitem sep no_leaf true u p).
Proof.
  intros H. rewrite !getitem_split. assert (G := getp_layout (split sep p) t u H). unfold agree in G.
  destruct (getp true t (split sep p)) as [[t1 r]|e], (getp true u (split sep p)) as [[u1 r']|e']; try tauto.
  - destruct G as [-> _]. reflexivity.
  - subst e'. reflexivity.
Qed.

Lemma rbind_snd {P Q S} (r : result (P * Q)) (f : Q -> result S) :
  (let* (_, q) := r in f q) = (let* q := rmap snd r in f q).
Proof. destruct r as [[? ?]|]; reflexivity. Qed.

Lemma part_layout in_key out_key t u conns : filled R t u ->
  partition_connections sep in_key out_key t conns = partition_connections sep in_key out_key u conns.
Proof.
  intros H. unfold partition_connections. destruct (check_double sep (normalize conns)); [reflexivity|].
  assert (Hk : forall k, part_key sep in_key out_key t k = part_key sep in_key out_key u k).
  { intros k. unfold part_key. destruct (under sep k in_key); [reflexivity|]. destruct (under sep k out_key); [reflexivity|].
    rewrite !(rbind_snd _ (fun rem => Ok (append (rstrip sep (removesuffix k rem)) (append (dsep sep) rem)))).
    rewrite (getitem_layout t u k H). reflexivity. }
  assert (Hv : forall v, part_val sep in_key out_key t v = part_val sep in_key out_key u v).
  { intros k. unfold part_val. destruct (under sep k out_key); [reflexivity|]. destruct (under sep k in_key); [reflexivity|].
    rewrite !(rbind_snd _ (fun rem => Ok (append (removesuffix (removesuffix k rem) (sepS sep)) (append (dsep sep) rem)))).
    rewrite (getitem_layout t u k H). reflexivity. }
  generalize (@nil (string * list string)) as acc. induction (normalize conns) as [|[k vs] c IH]; intros acc; [reflexivity|].
  cbn [rfold]. assert (E : part_entry sep in_key out_key t acc (k, vs) = part_entry sep in_key out_key u acc (k, vs)).
  { unfold part_entry. cbn [fst snd]. rewrite Hk. destruct (part_key sep in_key out_key u k); [|reflexivity]. cbn [rbind].
    assert (Em : rmapM (part_val sep in_key out_key t) vs = rmapM (part_val sep in_key out_key u) vs).
    { clear -Hv. induction vs as [|v vs IH]; [reflexivity|]. cbn [rmapM]. rewrite Hv, IH. reflexivity. }
    rewrite Em. reflexivity. }
  rewrite E. destruct (part_entry sep in_key out_key u acc (k, vs)); [|reflexivity]. cbn [rbind]. apply IH.
Qed.

Lemma order_layout t u conns : filled R t u ->
  get_execution_order sep t conns = get_execution_order sep u conns.
Proof.
  intros H. unfold get_execution_order, get_outer_connections. rewrite (part_layout _ _ t u conns H). reflexivity.
Qed.
Lemma place_layout uuid t u conns : filled R t u ->
  place_connections sep uuid "input" "output" t conns = place_connections sep uuid "input" "output" u conns.
Proof.
  intros H. unfold place_connections, concretize_connections. rewrite (part_layout _ _ t u conns H). reflexivity.
Qed.
End Layout.

Lemma rmapM_ext_in {X Y} (f g : X -> result Y) l : (forall x, In x l -> f x = g x) -> rmapM f l = rmapM g l.
Proof.
  induction l as [|x l IH]; intros H; [reflexivity|]. cbn [rmapM]. rewrite (H x) by (left; reflexivity).
  rewrite IH by (intros y Hy; apply H; right; exact Hy). reflexivity.
Qed.

Section Dead.
Variable sep : ascii.
Hypothesis Hsep : is_digit_char sep = false.
Hypothesis Hsi : no_sep sep "input" = true.
Hypothesis Hso : no_sep sep "output" = true.
Variable uuid : nat -> string.
Context {A Rng M : Type}.
Variable call : M -> tree A -> tree A -> bool -> tree A -> Rng -> result (tree A * tree A).

(** the same connections resolve to the same order and slots, and the modules of
    the order are the same: the compiled networks are the same *)
Lemma compiled_alike (modules modules' : tree M) conns c :
  good_network sep uuid modules conns ->
  get_execution_order sep modules conns = get_execution_order sep modules' conns ->
  place_connections sep uuid "input" "output" modules conns = place_connections sep uuid "input" "output" modules' conns ->
  (forall p, live_module sep modules conns p -> walk modules (split sep p) = walk modules' (split sep p)) ->
  compiled sep uuid modules conns = Ok c -> compiled sep uuid modules' conns = Ok c.
Proof.
  destruct c as [[order callables] [deps out_deps]]. intros Hg HO HP Hagree Hc.
  destruct (compiled_spec sep Hsep Hsi Hso uuid _ _ _ _ _ _ Hg Hc) as [nodes [Eo [Ec [Ed [Hn Hok]]]]].
  assert (Hlive : forall p, In p (map fst nodes) <-> live_module sep modules conns p) by apply Hn.
  unfold compiled in *. rewrite <- HO.
  apply rbind_ok in Hc as [order0 [Hord Hc]]. rewrite Hord. cbn [rbind].
  apply rbind_ok in Hc as [call0 [Hcal Hc]]. apply rbind_ok in Hc as [dd [Hdd Hc]]. injection Hc as -> -> ->.
  assert (Ecal : module_callables sep modules' order = module_callables sep modules order).
  { unfold module_callables. f_equal. apply rmapM_ext_in. intros p Hp.
    assert (Hp' : In p (map fst nodes)).
    { rewrite Eo in Hp. unfold body, order_of in Hp. apply filter_In in Hp as [Hp Hres].
      destruct Hp as [<-|Hp]; [discriminate|]. apply in_app_or in Hp as [Hp|[<-|[]]]; [exact Hp|discriminate]. }
    assert (Hcp : clean sep p) by (apply (proj1 (proj2 Hok)); exact Hp').
    pose proof (Hagree p (proj1 (Hlive p) Hp')) as Hw.
    apply in_map_iff in Hp' as [[p' [m d]] [Ep Hp']]. simpl in Ep; subst p'.
    destruct Hn as [_ [_ [Hm _]]]. specialize (Hm p m d Hp'). rewrite Hm in Hw. symmetry in Hw.
    apply look_walk_iff in Hm; [|exact Hcp]. apply look_walk_iff in Hw; [|exact Hcp]. rewrite Hm, Hw. reflexivity. }
  rewrite Ecal, Hcal. cbn [rbind].
  assert (Edd : module_input_dependencies sep uuid modules' conns = module_input_dependencies sep uuid modules conns).
  { unfold module_input_dependencies. rewrite <- HO, <- HP. reflexivity. }
  rewrite Edd, Hdd. reflexivity.
Qed.

Theorem agreeing_runs (modules modules' : tree M) conns params params' data training state state' rng out st1 :
  good_network sep uuid modules conns ->
  (forall c, compiled sep uuid modules conns = Ok c -> compiled sep uuid modules' conns = Ok c) ->
  (forall p, live_module sep modules conns p ->
     walk params (split sep p) = walk params' (split sep p) /\
     walk state (split sep p) = walk state' (split sep p) /\ settable state' (split sep p)) ->
  nonseq_model sep call uuid modules conns params data training state rng = Ok (out, st1) ->
  exists st2,
    nonseq_model sep call uuid modules' conns params' data training state' rng = Ok (out, st2) /\
    (forall p, live_module sep modules conns p -> walk st2 (split sep p) = walk st1 (split sep p)) /\
    (forall ks, (forall p, live_module sep modules conns p -> diverge (split sep p) ks) -> walk st2 ks = walk state' ks).
Proof.
  intros Hg HC Hagree H. rewrite model_compiled in H.
  apply rbind_ok in H as [[[order callables] [deps out_deps]] [Hc H]]. pose proof (HC _ Hc) as Hc'.
  destruct (compiled_spec sep Hsep Hsi Hso uuid _ _ _ _ _ _ Hg Hc) as [nodes [Eo [Ec [Ed [Hn Hok]]]]].
  assert (Hlive : forall p, In p (map fst nodes) <-> live_module sep modules conns p) by apply Hn.
  subst order callables deps. rewrite model_compiled, Hc'. cbn [rbind].
  destruct (nonseq_sound sep Hsi call nodes out_deps params data training state rng out st1 Hok H)
    as [val [news [[D1 D2] [Hout [Hst _]]]]].
  assert (Hslots : exists slots, @empty_slots sep A (order_of nodes) = Ok slots).
  { unfold nonseq_callable in H. apply rbind_ok in H as [s [Hs _]]. eauto. }
  destruct Hslots as [slots Hslots].
  destruct (nonseq_complete sep Hsi call nodes out_deps params' data training state' rng val news out slots Hok Hslots)
    as [st2 [R1 R2]].
  - intros p Hp. apply Hagree. apply Hlive. exact Hp.
  - split; [exact D1|]. intros p m d Hi. destruct (D2 p m d Hi) as [ind [mp [ms [F1 [F2 [F3 F4]]]]]].
    assert (Hp : In p (map fst nodes)) by (apply (in_map fst) in Hi; exact Hi).
    destruct (Hagree p (proj1 (Hlive p) Hp)) as [E1 [E2 _]]. exists ind, mp, ms. rewrite <- E1, <- E2. auto.
  - exact Hout.
  - exists st2. split; [exact R1|]. split.
    + intros p Hp. apply Hlive in Hp. rewrite R2, Hst by exact Hp. reflexivity.
    + intros ks Hks. destruct (nonseq_sound sep Hsi call nodes out_deps params' data training state' rng out st2 Hok R1)
        as [_ [_ [_ [_ [_ Hfr]]]]]. apply Hfr. intros p Hp. apply Hks, Hlive, Hp.
Qed.

Theorem dead_modules modules modules' conns params params' data training state state' rng out st1 :
  good_network sep uuid modules conns ->
  same_layout modules modules' ->
  (forall p, live_module sep modules conns p ->
     walk modules (split sep p) = walk modules' (split sep p) /\
     walk params (split sep p) = walk params' (split sep p) /\
     walk state (split sep p) = walk state' (split sep p) /\ settable state' (split sep p)) ->
  nonseq_model sep call uuid modules conns params data training state rng = Ok (out, st1) ->
  exists st2,
    nonseq_model sep call uuid modules' conns params' data training state' rng = Ok (out, st2) /\
    (forall p, live_module sep modules conns p -> walk st2 (split sep p) = walk st1 (split sep p)) /\
    (forall ks, (forall p, live_module sep modules conns p -> diverge (split sep p) ks) -> walk st2 ks = walk state' ks).
Proof.
  intros Hg Hlay Hagree. apply agreeing_runs; [exact Hg| |intros p Hp; apply Hagree, Hp].
  assert (HR : forall (x : M) (y : tree M), (exists b, y = Leaf b) -> exists b, y = Leaf b) by auto.
  intros c. apply compiled_alike; [exact Hg|exact (order_layout _ HR sep modules modules' conns Hlay)|
    exact (place_layout _ HR sep uuid modules modules' conns Hlay)|intros p Hp; apply Hagree, Hp].
Qed.

Theorem state_structure modules conns params data training state rng out st' ks :
  good_network sep uuid modules conns ->
  (forall p, live_module sep modules conns p -> diverge (split sep p) ks \/ exists e, e <> [] /\ split sep p = ks ++ e) ->
  nonseq_model sep call uuid modules conns params data training state rng = Ok (out, st') ->
  option_map kind_of (walk st' ks) = option_map kind_of (walk state ks).
Proof.
  intros Hg Hks H. rewrite model_compiled in H.
  apply rbind_ok in H as [[[order callables] [deps out_deps]] [Hc H]].
  destruct (compiled_spec sep Hsep Hsi Hso uuid _ _ _ _ _ _ Hg Hc) as [nodes [-> [-> [-> [Hn Hok]]]]].
  assert (Hlive : forall p, In p (map fst nodes) <-> live_module sep modules conns p) by apply Hn.
  unfold nonseq_callable in H. apply rbind_ok in H as [i0 [H0 H]]. apply rbind_ok in H as [i1 [H1 H]].
  apply rbind_ok in H as [[inter st] [H2 H]]. apply rbind_ok in H as [out' [H3 H]]. injection H as <- <-.
  rewrite zip_steps in H2. cbn [rfold] in H2. unfold node_step at 1 in H2.
  cbn [reserved_name orb String.eqb Ascii.eqb Bool.eqb] in H2. cbn [rbind] in H2.
  eapply run_kind; [| | |exact H2].
  - intros p Hp. apply (proj1 (proj2 Hok)). exact Hp.
  - intros p Hp. eapply net_ok_reserved; eauto.
  - intros p Hp. apply Hks, Hlive, Hp.
Qed.

Lemma live_canonical (modules : tree M) conns p :
  good_network sep uuid modules conns -> live_module sep modules conns p -> canonical sep p.
Proof.
  intros [_ [_ [_ [_ [_ Hcan]]]]] [[H _] [Hi Ho]].
  apply clos_rt_rtn1 in H. inversion H as [|y z Hf Hr]; subst; [congruence|].
  destruct Hf as [k [v [Hkv [_ Hv]]]]. destruct Hv as [[-> _]|[_ [_ [rest [a [E _]]]]]]; [congruence|].
  specialize (Hcan k v Hkv). unfold canonical in *. rewrite E in Hcan. apply Forall_app in Hcan. apply Hcan.
Qed.

(** an unconnected module keeps its state *)
Theorem dead_state modules conns params data training state rng out st' p m :
  good_network sep uuid modules conns ->
  walk modules (split sep p) = Some (Leaf m) -> canonical sep p -> ~ live_module sep modules conns p ->
  nonseq_model sep call uuid modules conns params data training state rng = Ok (out, st') ->
  walk st' (split sep p) = walk state (split sep p).
Proof.
  intros Hg Hm Hc Hd H.
  destruct (model_sound sep Hsep Hsi Hso uuid call _ _ _ _ _ _ _ _ _ Hg H) as [nodes [od [val [news [Hn [_ [_ [_ [_ Hf]]]]]]]]].
  apply Hf. intros q Hq. destruct Hn as [_ [Hl [Hw _]]].
  assert (Hql := proj1 (Hl q) Hq).
  apply in_map_iff in Hq as [[q' [mq dq]] [<- Hq]]. assert (Hwq := Hw _ _ _ Hq). simpl in *.
  apply canonical_diverge; [exact (live_canonical _ _ _ Hg Hql)|exact Hc| |].
  - intros e E. rewrite E, walk_app, Hwq in Hm. destruct e as [|k e]; [|discriminate].
    rewrite app_nil_r in E. apply split_inj in E. subst. contradiction.
  - intros e E. rewrite E, walk_app, Hm in Hwq. destruct e as [|k e]; [|discriminate].
    rewrite app_nil_r in E. apply split_inj in E. subst. contradiction.
Qed.

(** a solution of the equations is always computed *)
Theorem model_complete modules conns order callables deps out_deps slots :
  good_network sep uuid modules conns ->
  compiled sep uuid modules conns = Ok (order, callables, (deps, out_deps)) ->
  @empty_slots sep A order = Ok slots ->
  exists nodes, network_of sep uuid modules conns nodes out_deps /\ map fst nodes = body order /\
  forall params data training state rng val news out,
    (forall p, In p (map fst nodes) -> settable state (split sep p)) ->
    dataflow sep call "input" nodes params data training state rng val news ->
    filled (value_at sep ("input" :: map fst nodes) val) out_deps out ->
    exists st', nonseq_model sep call uuid modules conns params data training state rng = Ok (out, st').
Proof.
  intros Hg Hc Hs. destruct (compiled_spec sep Hsep Hsi Hso uuid _ _ _ _ _ _ Hg Hc) as [nodes [-> [-> [-> [Hn Hok]]]]].
  exists nodes. split; [exact Hn|]. split.
  - unfold order_of, body. cbn [filter]. cbn [reserved_name String.eqb Ascii.eqb Bool.eqb orb negb].
    rewrite filter_app. cbn [filter]. cbn [reserved_name String.eqb Ascii.eqb Bool.eqb orb negb]. rewrite app_nil_r.
    assert (Hr : forall p, In p (map fst nodes) -> reserved_name p = false) by (intros p Hp; eapply net_ok_reserved; eauto).
    induction (map fst nodes) as [|p l IH]; [reflexivity|]. cbn [filter]. rewrite (Hr p) by (left; reflexivity).
    cbn [negb]. f_equal. apply IH. intros q Hq. apply Hr. right; exact Hq.
  - intros params data training state rng val news out Hset Hd Hf.
    destruct (nonseq_complete sep Hsi call _ _ _ _ _ _ _ _ _ _ _ Hok Hs Hset Hd Hf) as [st' [H _]].
    exists st'. rewrite model_compiled, Hc. exact H.
Qed.
End Dead.
