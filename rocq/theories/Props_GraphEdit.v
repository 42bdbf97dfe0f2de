(** C131: editing the modules of a graph model whose connections stay. *)
From Coq Require Import ZArith.
From Verif Require Import Base BaseLemmas TreeUtil TreeSpec TreeProofs Connections ConnSpec ConnProofs
  NonSeq NonSeqSpec NonSeqNet NonSeqDead BatchSpec Edit EditSpec EditProofs GraphEdit Props_Conn Props_NonSeq.
Local Open Scope string_scope.
Local Open Scope list_scope.

(** the name that an edit of a dictionary of modules is about *)
Inductive about {M} (uuid : string) (d : list (string * tree M)) : op M -> string -> Prop :=
| ab_insert i x k : about uuid d (Insert i x (Some k)) k
| ab_append x k : about uuid d (Append x (Some k)) k
| ab_prepend x k : about uuid d (Prepend x (Some k)) k
| ab_insert0 i x : about uuid d (Insert i x None) uuid
| ab_append0 x : about uuid d (Append x None) uuid
| ab_prepend0 x : about uuid d (Prepend x None) uuid
| ab_set k x : about uuid d (SetKey k x) k
| ab_pop k : about uuid d (PopKey k) k
| ab_pop_index i a k x b : d = a ++ (k, x) :: b -> points i d (length a) -> about uuid d (PopIdx i) k.
(** ... and those edits that take the module away *)
Definition takes_away {M} (o : op M) : Prop := match o with PopKey _ | PopIdx _ => True | _ => False end.

Lemma fold_agree {V} (l : list (string * V)) k : forall acc acc', agree_but k acc acc' ->
  agree_but k (fold_left (fun d kv => dset d (fst kv) (snd kv)) l acc) (fold_left (fun d kv => dset d (fst kv) (snd kv)) l acc').
Proof.
  induction l as [|[k0 v] l IH]; intros acc acc' H; [exact H|]. cbn [fold_left fst snd]. apply IH. intros k' N.
  destruct (String.eqb_spec k0 k') as [ -> |N']; [rewrite !dget_dset_same; reflexivity|]. rewrite !dget_dset_other by exact N'. apply H, N.
Qed.
Lemma insert_agree {V} (d : list (string * V)) i k x : NoDup (dkeys d) -> agree_but k d (dict_of (py_insert d i (k, x))).
Proof.
  intros N. assert (E : d = dict_of (firstn (cut (length d) i) d ++ skipn (cut (length d) i) d)) by (rewrite firstn_skipn, dict_of_id by exact N; reflexivity).
  rewrite E at 1. unfold dict_of, py_insert. rewrite !fold_left_app. cbn [fold_left fst snd]. apply fold_agree. intros k' Nk. apply dget_dset_other. congruence.
Qed.
Lemma remove_agree {V} (a b : list (string * V)) k x : NoDup (dkeys (a ++ (k, x) :: b)) -> agree_but k (a ++ (k, x) :: b) (a ++ b) /\ dget (a ++ b) k = None.
Proof.
  intros N. split.
  - intros k' Nk. clear N. induction a as [|[k0 v] a IH]; cbn [app dget]; [destruct (String.eqb_spec k' k); [contradiction|reflexivity]|].
    destruct (String.eqb k' k0); [reflexivity|exact IH].
  - unfold dkeys in N. rewrite map_app in N. cbn [map fst] in N. apply NoDup_remove_2 in N. rewrite <- map_app in N.
    destruct (dget (a ++ b) k) as [v|] eqn:E; [|reflexivity]. exfalso. apply N. clear -E. induction (a ++ b) as [|[k0 v0] l IH]; [discriminate|].
    cbn [dget] in E. cbn [map fst]. destruct (String.eqb_spec k k0) as [ -> |]; [left; reflexivity|right; exact (IH E)].
Qed.

(** an edit of a dictionary of modules leaves a dictionary that differs only in
    the entry of that name *)
Lemma dict_edit {M} uuid (h : heap M) m d o k h' m' r : ref m < length h -> hget h (ref m) = CDict d -> NoDup (dkeys d) ->
  about uuid d o k -> run uuid h m o = (h', m', Ok r) ->
  exists d', hget h' (ref m') = CDict d' /\ agree_but k d d' /\ (takes_away o -> dget d' k = None).
Proof.
  intros Hr Ec N A H.
  assert (I : forall i (x : item M) key, insert_module uuid h m i x key = (h', m', Ok r) ->
     exists d', hget h' (ref m') = CDict d' /\ agree_but (match key with Some k => k | None => uuid end) d d').
  { intros i x key E. unfold insert_module in E. rewrite Ec in E. cbn [halloc] in E. injection E as <- <- _. cbn [ref].
    exists (dict_of (py_insert d i (match key with Some k => k | None => uuid end, x))).
    split; [exact (hget_alloc h _)|apply insert_agree, N]. }
  destruct A as [i x k|x k|x k|i x|x|x|k x|k|i a k x b Ed P]; cbn [run] in H;
    try (destruct (I _ _ _ H) as (d' & E1 & E2); exists d'; split; [exact E1|]; split; [exact E2|intros []]).
  - rewrite Ec in H. injection H as <- <- _. cbn [ref]. exists (dset d k x). rewrite hget_set by exact Hr. split; [reflexivity|]. split; [|intros []].
    intros k' Nk. apply dget_dset_other. congruence.
  - destruct (dget d k) as [x|] eqn:Ek.
    2:{ rewrite Ec, Ek in H. discriminate. }
    destruct (pop_key_spec uuid h m d k x Hr Ec N Ek) as (h2 & m2 & a & b & E & Ed & Eh). cbn [run] in E. rewrite E in H. injection H as <- <- _.
    exists (a ++ b). split; [exact Eh|]. subst d. destruct (remove_agree a b k x N) as [R1 R2]. auto.
  - unfold pop_index in H. rewrite Ec in H. unfold py_pop in H. destruct (index d i) as [j|] eqn:Ej; [|discriminate]. cbn [rbind] in H.
    pose proof (index_ok d i j Ej) as [Q1 Q2]. destruct P as [P1 P2]. assert (j = length a) as -> by (unfold item in *; lia).
    assert (En : nth_error d (length a) = Some (k, x)) by (rewrite Ed, nth_error_app2, Nat.sub_diag by lia; reflexivity). rewrite En in H.
    assert (Es : firstn (length a) d ++ skipn (S (length a)) d = a ++ b).
    { rewrite Ed. rewrite firstn_app, firstn_all, Nat.sub_diag. cbn [firstn]. rewrite app_nil_r. f_equal. rewrite skipn_app, skipn_all2 by lia.
      replace (S (length a) - length a) with 1 by lia. reflexivity. }
    rewrite Es in H. cbn [halloc] in H. injection H as <- <- _. cbn [ref]. rewrite Ed in N. destruct (remove_agree a b k x N) as [R1 R2].
    assert (Edd : @dict_of (item M) (a ++ b) = a ++ b).
    { apply dict_of_id. unfold dkeys in *. rewrite map_app in *. cbn [map fst] in N. apply NoDup_remove_1 in N. exact N. }
    rewrite Edd. exists (a ++ b). split; [exact (hget_alloc h _)|rewrite Ed; auto].
Qed.

(** Modules in a dictionary, an edit about a name that no connection mentions:
    the same network is compiled, and it computes the same output and states. *)
Theorem C131_unmentioned_partial : forall (sep : ascii), is_digit_char sep = false -> no_sep sep "input" = true -> no_sep sep "output" = true ->
  forall (uuids : nat -> string) (A Rng M : Type)
    (call : M -> tree A -> tree A -> bool -> tree A -> Rng -> result (tree A * tree A))
    uuid (h : heap M) m d o k h' m' r conns params params' data training state state' rng out st1,
  ref m < length h -> hget h (ref m) = CDict d -> NoDup (dkeys d) -> about uuid d o k -> run uuid h m o = (h', m', Ok r) ->
  good_network sep uuids (Dict d) conns -> ~ mentions sep conns k ->
  (forall p, live_module sep (Dict d) conns p ->
     walk params (split sep p) = walk params' (split sep p) /\
     walk state (split sep p) = walk state' (split sep p) /\ settable state' (split sep p)) ->
  nonseq_model sep call uuids (Dict d) conns params data training state rng = Ok (out, st1) ->
  exists st2,
    nonseq_model sep call uuids (to_tree (hget h' (ref m'))) conns params' data training state' rng = Ok (out, st2) /\
    (forall p, live_module sep (Dict d) conns p -> walk st2 (split sep p) = walk st1 (split sep p)).
Proof.
  intros sep H1 H2 H3 uuids A Rng M call uuid h m d o k h' m' r conns params params' data training state state' rng out st1 Hr Ec N Ab Hrun G Nm Ag H.
  destruct (dict_edit uuid h m d o k h' m' r Hr Ec N Ab Hrun) as (d' & -> & E & _). cbn [to_tree].
  destruct (agreeing_runs sep H1 H2 H3 uuids call (Dict d) (Dict d') conns params params' data training state state' rng out st1 G) as (st2 & R1 & R2 & _);
    [|exact Ag|exact H|now exists st2].
  intros c. apply (dict_unmentioned sep H1 H2 H3 uuids d d' k conns c G E Nm).
Qed.

(** Taking away a module that some connection mentions (the module need not be
    on a path to the output): the next compilation is refused. *)
Theorem C131_taken_away : forall (sep : ascii), is_digit_char sep = false -> no_sep sep "input" = true -> no_sep sep "output" = true ->
  forall (uuids : nat -> string) (M : Type) uuid (h : heap M) m d o k h' m' r conns c,
  ref m < length h -> hget h (ref m) = CDict d -> NoDup (dkeys d) -> about uuid d o k -> takes_away o -> run uuid h m o = (h', m', Ok r) ->
  good_network sep uuids (Dict d) conns -> mentions sep conns k -> k <> "input" -> k <> "output" ->
  NonSeqNet.compiled sep uuids (Dict d) conns = Ok c ->
  NonSeqNet.compiled sep uuids (to_tree (hget h' (ref m'))) conns = Err KeyError.
Proof.
  intros sep H1 H2 H3 uuids M uuid h m d o k h' m' r conns c Hr Ec N Ab T Hrun G Mn N1 N2 Hc.
  destruct (dict_edit uuid h m d o k h' m' r Hr Ec N Ab Hrun) as (d' & -> & E & Gone). cbn [to_tree].
  exact (dict_removed sep H2 H3 uuids d d' k conns c G E (Gone T) N1 N2 Mn Hc).
Qed.

(** Modules in a list: a module appended to a list whose entries all hold modules
    changes nothing. *)
Theorem C131_appended_partial : forall (sep : ascii), is_digit_char sep = false -> no_sep sep "input" = true -> no_sep sep "output" = true ->
  forall (uuids : nat -> string) (M : Type) uuid (h : heap M) m l x key h' m' r conns c,
  ref m < length h -> hget h (ref m) = CList l -> Forall populated l -> run uuid h m (Append x key) = (h', m', Ok r) ->
  good_network sep uuids (Lst l) conns ->
  NonSeqNet.compiled sep uuids (Lst l) conns = Ok c ->
  NonSeqNet.compiled sep uuids (to_tree (hget h' (ref m'))) conns = Ok c.
Proof.
  intros sep H1 H2 H3 uuids M uuid h m l x key h' m' r conns c Hr Ec P Hrun G Hc.
  destruct (append_spec uuid h m x key) as (h2 & m2 & E & K & En); try (rewrite Ec); cbn [wf_cont kind_of new_name entries]; try exact I; try discriminate; try exact Hr.
  { apply Forall_forall. intros e He. apply in_map_iff in He as (y & <- & Hy). rewrite Forall_forall in P. exact (P y Hy). }
  rewrite E in Hrun. injection Hrun as <- <- _. rewrite Ec in K, En. cbn [EditSpec.kind_of entries new_name] in K, En.
  destruct (hget h2 (ref m2)) as [l2|l2|d2|t2]; cbn [EditSpec.kind_of] in K; try discriminate. cbn [entries to_tree] in *.
  assert (l2 = l ++ [x]) as ->.
  { apply (f_equal (map snd)) in En. rewrite map_app, !map_map in En. cbn [map snd] in En. rewrite !map_id in En. exact En. }
  apply (list_appended sep H1 H2 H3 uuids l [x] conns c G Hc).
Qed.

(** *** Examples *)
Lemma written_list conns p : written conns p -> In p (flat_map (fun kv => fst kv :: snd kv) (normalize conns)).
Proof. intros (k & vs & A & B). apply in_flat_map. exists (k, vs). split; [exact A|]. destruct B as [ -> |B]; [left; reflexivity|right; exact B]. Qed.
Lemma unmentioned sep conns k :
  forallb (fun p => negb (String.eqb (hd "" (split sep p)) k)) (flat_map (fun kv => fst kv :: snd kv) (normalize conns)) = true -> ~ mentions sep conns k.
Proof.
  intros H (p & rest & W & E). rewrite forallb_forall in H. specialize (H p (written_list _ _ W)). rewrite E in H. cbn [hd] in H. rewrite String.eqb_refl in H. discriminate.
Qed.

(** The network of C12 gets a module "E" in front: nothing changes. *)
Definition gdict : list (string * tree nat) := [("A", Leaf 1); ("B", Lst [Leaf 2; Leaf 3]); ("D", Leaf 7)].
Definition gedited : heap nat := [CDict gdict; CDict (("E", Leaf 50) :: gdict)].
Example C131_unmentioned_example :
  about "id" gdict (Prepend (Leaf 50) (Some "E")) "E" /\ ~ mentions "." gconns "E" /\ NoDup (dkeys gdict) /\
  run "id" [CDict gdict] (mk_model 0 true) (Prepend (Leaf 50) (Some "E")) = (gedited, mk_model 1 false, Ok None) /\
  good_network "." uu (Dict gdict) gconns /\
  nonseq_model "." gcall uu (to_tree (hget gedited 1)) gconns gparams gdata false gstate 0 =
  nonseq_model "." gcall uu (Dict gdict) gconns gparams gdata false gstate 0 /\
  nonseq_model "." gcall uu (Dict gdict) gconns gparams gdata false gstate 0 =
  Ok (Dict [("x", Leaf 133); ("y", Leaf 433)], Dict [("A", Leaf 6); ("B", Lst [Leaf 7; Leaf 8]); ("D", Leaf 8)]).
Proof.
  split; [constructor|]. split; [apply unmentioned; reflexivity|]. split; [repeat constructor; cbn; intuition discriminate|].
  split; [reflexivity|]. split; [exact gnet_good|]. split; vm_compute; reflexivity.
Qed.
(** Without "D", on which no output depends but which is mentioned, it is refused. *)
Example C131_taken_away_example :
  about "id" gdict (PopKey "D") "D" /\ takes_away (PopKey (M:=nat) "D") /\ mentions "." gconns "D" /\ ~ live_module "." gmods gconns "D" /\
  NonSeqNet.compiled "." uu (to_tree (hget (fst (fst (run "id" [CDict gdict] (mk_model 0 true) (PopKey "D")))) 0)) gconns = Err KeyError.
Proof.
  split; [constructor|]. split; [exact I|]. split; [|split; [exact gnet_dead|vm_compute; reflexivity]].
  exists "D", []. split; [|reflexivity]. exists "input.0", ["A"; "B.0"; "B.1"; "D"]. split; [left; reflexivity|right; cbn; auto].
Qed.

(** *** Modules in a list are named by their positions *)
Definition lmods : list (tree nat) := [Leaf 1; Leaf 2; Leaf 3; Leaf 4].
Definition lconns : dict cval := [("input", One "1"); ("1", One "2"); ("2", One "output")].
Lemma lnet_good : good_network "." uu (Lst lmods) lconns.
Proof.
  split; [reflexivity|]. split; [|split; [|split; [|split]]].
  - split; [|split].
    + simpl. repeat constructor; simpl; intuition discriminate.
    + intros k c H. simpl in H. apply cleanb.
      repeat (destruct H as [H|H]; [injection H as <- <-; reflexivity|]). destruct H.
    + intros k v H. simpl in H. split.
      * apply cleanb. repeat (destruct H as [H|H]; [injection H as <- <-; reflexivity|]). destruct H.
      * destruct H as [H|[H|[H|[]]]]; injection H as <- <-.
        -- right. exists ["1"], [], (Leaf 2). auto.
        -- right. exists ["2"], [], (Leaf 3). auto.
        -- left. exists []. reflexivity.
  - apply uu_fresh. vm_compute. reflexivity.
  - intros k v H E. simpl in H. destruct H as [H|[H|[H|[]]]]; injection H as <- <-; try discriminate E. exists []. reflexivity.
  - intros k c H E. simpl in H. destruct H as [H|[H|[H|[]]]]; injection H as <- <-; try (destruct E; discriminate). exists []. reflexivity.
  - intros k v H. simpl in H. destruct H as [H|[H|[H|[]]]]; injection H as <- <-;
      unfold canonical; simpl; repeat (constructor; [intros E; try discriminate E; reflexivity|]); constructor.
Qed.
Example C131_appended_example :
  good_network "." uu (Lst lmods) lconns /\ Forall populated lmods /\
  (let '(h, m, _) := run "id" [CList lmods] (mk_model 0 true) (Append (Leaf 9) None) in
   NonSeqNet.compiled "." uu (to_tree (hget h (ref m))) lconns) = NonSeqNet.compiled "." uu (Lst lmods) lconns /\
  (exists dd, NonSeqNet.compiled "." uu (Lst lmods) lconns = Ok (["input"; "1"; "2"; "output"], [None; Some 2; Some 3], dd)).
Proof.
  split; [exact lnet_good|]. split; [unfold lmods; repeat (apply Forall_cons; [eexists; apply hl_leaf|]); constructor|]. split; [vm_compute; reflexivity|].
  eexists. vm_compute. reflexivity.
Qed.

(** the modules that are called, in order *)
Definition calls {M} (r : result (list string * list (option M) * (list (tree string) * tree string))) : option (list (option M)) :=
  match r with Ok (_, callables, _) => Some callables | Err _ => None end.
(** After an edit of a list of modules that adds a module, or takes away one that
    no connection mentions, the model calls the modules it called before, or is
    refused. *)
Definition C131_list_always : Prop := forall (h : heap nat) m l o h' m' r conns cs,
  hget h (ref m) = CList l -> run "id" h m o = (h', m', Ok r) ->
  ((exists i x, o = Insert i x None) \/ (exists i j, o = PopIdx i /\ points i l j /\ ~ mentions "." conns (str_of j))) ->
  good_network "." uu (Lst l) conns -> calls (NonSeqNet.compiled "." uu (Lst l) conns) = Some cs ->
  calls (NonSeqNet.compiled "." uu (to_tree (hget h' (ref m'))) conns) = Some cs \/
  calls (NonSeqNet.compiled "." uu (to_tree (hget h' (ref m'))) conns) = None.
(** A module added in front: the modules 1 and 2 are called instead of 2 and 3. *)
Theorem C131_inserted_refuted : ~ C131_list_always.
Proof.
  intros H. specialize (H [CList lmods] (mk_model 0 true) lmods (Insert 0 (Leaf 9) None) [CList (Leaf 9 :: lmods)] (mk_model 0 false) None lconns [None; Some 2; Some 3] eq_refl eq_refl).
  destruct H as [H|H]; [left; eexists _, _; reflexivity|exact lnet_good|vm_compute; reflexivity| |]; vm_compute in H; discriminate H.
Qed.
(** The unconnected module 1 taken away: 3 and 4 are called instead of 2 and 3. *)
Theorem C131_popped_refuted : ~ C131_list_always.
Proof.
  intros H. specialize (H [CList lmods] (mk_model 0 true) lmods (PopIdx 0) [CList [Leaf 2; Leaf 3; Leaf 4]] (mk_model 0 false) (Some (Leaf 1)) lconns [None; Some 2; Some 3] eq_refl eq_refl).
  destruct H as [H|H]; [|exact lnet_good|vm_compute; reflexivity| |]; [|vm_compute in H; discriminate H..].
  right. exists 0%Z, 0. split; [reflexivity|]. split; [split; cbn; [lia|left; reflexivity]|]. apply unmentioned. reflexivity.
Qed.
Example C131_popped_example :
  calls (NonSeqNet.compiled "." uu (Lst [Leaf 2; Leaf 3; Leaf 4]) lconns) = Some [None; Some 3; Some 4] /\
  calls (NonSeqNet.compiled "." uu (Lst (Leaf 9 :: lmods)) lconns) = Some [None; Some 1; Some 2].
Proof. split; vm_compute; reflexivity. Qed.

Print Assumptions C131_unmentioned_partial.
Print Assumptions C131_taken_away.
Print Assumptions C131_appended_partial.
Print Assumptions C131_inserted_refuted.
Print Assumptions C131_popped_refuted.
