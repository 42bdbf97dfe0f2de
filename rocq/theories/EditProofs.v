(** Lemmas on editing the modules of a model. *)
From Coq Require Import ZArith.
From Verif Require Import Base BaseLemmas TreeUtil NonSeqSpec NonSeqProofs MutableProofs BatchSpec TrainArgsProofs Edit EditSpec.
Local Open Scope list_scope.

Lemma cut_place n i : place n i (cut n i).
Proof. unfold place, cut. repeat split; intros; destruct (Z.ltb_spec i 0); lia. Qed.
Lemma cut_le n i : cut n i <= n.
Proof. unfold cut. destruct (Z.ltb_spec i 0); lia. Qed.
Lemma py_insert_ok {A} (l : list A) i x : inserted i x l (py_insert l i x).
Proof.
  exists (firstn (cut (length l) i) l), (skipn (cut (length l) i) l). split; [symmetry; apply firstn_skipn|]. split; [reflexivity|].
  rewrite firstn_length_le by apply cut_le. apply cut_place.
Qed.
Lemma inserted_map {A B} (f : A -> B) i x l l' : inserted i x l l' -> inserted i (f x) (map f l) (map f l').
Proof. intros (a & b & -> & -> & H). exists (map f a), (map f b). rewrite !map_app. cbn [map]. split; [reflexivity|]. split; [reflexivity|]. unfold place in *. rewrite <- map_app, !map_length. exact H. Qed.
Lemma removed_map {A B} (f : A -> B) i x l l' : removed i x l l' -> removed i (f x) (map f l) (map f l').
Proof.
  intros (a & b & -> & -> & H). exists (map f a), (map f b). rewrite !map_app. cbn [map]. split; [reflexivity|]. split; [reflexivity|].
  unfold points in *. rewrite app_length in *. cbn [length] in *. rewrite !map_length. exact H.
Qed.
Lemma replaced_map {A B} (f : A -> B) i x l l' : replaced i x l l' -> replaced i (f x) (map f l) (map f l').
Proof.
  intros (a & y & b & -> & -> & H). exists (map f a), (f y), (map f b). rewrite !map_app. cbn [map]. split; [reflexivity|]. split; [reflexivity|].
  unfold points in *. rewrite app_length in *. cbn [length] in *. rewrite !map_length. exact H.
Qed.
Lemma index_ok {A} (l : list A) i k : index l i = Ok k -> points i l k.
Proof.
  unfold index, points. destruct (_ && _)%bool eqn:E; [|discriminate]. intros H. injection H as <-. apply andb_prop in E as [E1 E2].
  apply Z.leb_le in E1. apply Z.ltb_lt in E2. destruct (Z.ltb_spec i 0); lia.
Qed.
Lemma index_in_range {A} (l : list A) i : in_range i l -> exists k, index l i = Ok k.
Proof.
  intros H. unfold in_range in H. unfold index. eexists. replace (_ && _)%bool with true; [reflexivity|]. symmetry.
  apply andb_true_intro. rewrite Z.leb_le, Z.ltb_lt. destruct (Z.ltb_spec i 0); lia.
Qed.
Lemma index_out {A} (l : list A) i : ~ in_range i l -> index l i = Err IndexError.
Proof.
  intros H. unfold in_range in H. unfold index. replace (_ && _)%bool with false; [reflexivity|]. symmetry.
  apply andb_false_iff. rewrite Z.leb_gt, Z.ltb_ge. destruct (Z.ltb_spec i 0); lia.
Qed.
Lemma nth_split' {A} (l : list A) k x : nth_error l k = Some x -> l = firstn k l ++ x :: skipn (S k) l /\ length (firstn k l) = k.
Proof.
  revert k. induction l as [|a l IH]; intros [|k] H; try discriminate.
  - injection H as ->. split; reflexivity.
  - destruct (IH k H) as [E1 E2]. cbn [firstn skipn app length]. split; [f_equal; exact E1|lia].
Qed.
Lemma points_nth {A} (l : list A) i k : points i l k -> exists x, nth_error l k = Some x.
Proof. intros [H _]. destruct (nth_error l k) eqn:E; [eauto|]. apply nth_error_None in E. lia. Qed.
Lemma py_pop_ok {A} (l : list A) i : in_range i l -> exists x l', py_pop l i = Ok (x, l') /\ removed i x l l' /\ py_get l i = Ok x.
Proof.
  intros H. destruct (index_in_range l i H) as (k & E). pose proof (index_ok l i k E) as HP. destruct (points_nth l i k HP) as (x & Ex).
  unfold py_pop, py_get. rewrite E. cbn [rbind]. rewrite Ex. exists x. eexists. split; [reflexivity|]. split; [|reflexivity].
  destruct (nth_split' l k x Ex) as [E1 E2]. exists (firstn k l), (skipn (S k) l). split; [exact E1|]. split; [reflexivity|]. rewrite E2. exact HP.
Qed.
Lemma py_set_ok {A} (l : list A) i x : in_range i l -> exists l', py_set l i x = Ok l' /\ replaced i x l l'.
Proof.
  intros H. destruct (index_in_range l i H) as (k & E). pose proof (index_ok l i k E) as HP. destruct (points_nth l i k HP) as (y & Ey).
  unfold py_set. rewrite E. cbn [rbind]. eexists. split; [reflexivity|].
  destruct (nth_split' l k y Ey) as [E1 E2]. exists (firstn k l), y, (skipn (S k) l). split; [exact E1|]. split; [reflexivity|]. rewrite E2. exact HP.
Qed.
(** tuples: [t[:i] + t[i+1:]] *)
Lemma slices_pop {A} (l : list A) i k x : index l i = Ok k -> nth_error l k = Some x -> (i <> -1)%Z ->
  slice_to l i ++ slice_from l (i + 1) = firstn k l ++ skipn (S k) l.
Proof.
  intros E Ex Hi. pose proof (index_ok l i k E) as [HP HQ]. unfold slice_to, slice_from, cut.
  destruct (Z.ltb_spec i 0), (Z.ltb_spec (i + 1) 0); try lia.
  - replace (Z.to_nat (Z.of_nat (length l) + i)) with k by lia. replace (Z.to_nat (Z.of_nat (length l) + (i + 1))) with (S k) by lia. reflexivity.
  - unfold index in E. destruct (Z.ltb_spec i 0) as [|_]; [lia|]. destruct (_ && _)%bool eqn:E3; [|discriminate].
    apply andb_prop in E3 as [E3 E4]. apply Z.leb_le in E3. apply Z.ltb_lt in E4. injection E as Ek.
    replace (Nat.min (length l) (Z.to_nat i)) with k by lia. replace (Nat.min (length l) (Z.to_nat (i + 1))) with (S k) by lia. reflexivity.
Qed.

(** *** dictionaries *)
Lemma dset_fresh {V} (d : list (string * V)) k v : ~ In k (dkeys d) -> dset d k v = d ++ [(k, v)].
Proof.
  induction d as [|[k0 v0] d IH]; intros H; [reflexivity|]. cbn [dset app]. unfold dkeys in *. cbn [map fst In] in H.
  destruct (String.eqb_spec k k0) as [->|]; [exfalso; apply H; left; reflexivity|]. f_equal. apply IH. tauto.
Qed.
Lemma dict_of_acc {V} (l acc : list (string * V)) : NoDup (dkeys (acc ++ l)) ->
  fold_left (fun d kv => dset d (fst kv) (snd kv)) l acc = acc ++ l.
Proof.
  revert acc. induction l as [|[k v] l IH]; intros acc H; cbn [fold_left]; [rewrite app_nil_r; reflexivity|]. cbn [fst snd].
  rewrite dset_fresh.
  - rewrite IH; rewrite <- app_assoc; [reflexivity|exact H].
  - unfold dkeys in *. rewrite map_app in H. cbn [map fst] in H. apply NoDup_remove_2 in H. rewrite in_app_iff in H. tauto.
Qed.
Lemma dict_of_id {V} (l : list (string * V)) : NoDup (dkeys l) -> dict_of l = l.
Proof. intros H. unfold dict_of. rewrite dict_of_acc; [reflexivity|exact H]. Qed.

Section Ops.
Context {M : Type}.
Notation cont := (cont M). Notation item := (item M). Notation heap := (heap M).

Lemma hget_alloc (h : heap) (c : cont) : hget (fst (halloc h c)) (snd (halloc h c)) = c.
Proof. unfold hget, halloc. cbn [fst snd]. rewrite app_nth2 by lia. rewrite Nat.sub_diag. reflexivity. Qed.
Lemma hget_alloc_old (h : heap) (c : cont) r : r < length h -> hget (fst (halloc h c)) r = hget h r.
Proof. intros H. unfold hget, halloc. cbn [fst]. apply app_nth1. exact H. Qed.
Lemma hget_set (h : heap) r (c : cont) : r < length h -> hget (hset h r c) r = c.
Proof. intros H. unfold hget, hset. apply nth_error_nth. apply nth_upd_same. exact H. Qed.
Lemma hget_set_other (h : heap) r r' (c : cont) : r <> r' -> hget (hset h r c) r' = hget h r'.
Proof.
  intros H. unfold hget, hset. pose proof (nth_upd_other h r r' c H) as E. destruct (nth_error h r') as [c0|] eqn:E0.
  - rewrite (nth_error_nth _ _ _ E), (nth_error_nth _ _ _ E0). reflexivity.
  - apply nth_error_None in E, E0. rewrite !nth_overflow by assumption. reflexivity.
Qed.

(** the name given to a new entry *)
Definition new_name (c : cont) (uuid : string) (key : option string) : option string :=
  match c with CDict _ => Some (match key with Some k => k | None => uuid end) | _ => None end.

Lemma insert_spec uuid (h : heap) m i (x : item) key : ref m < length h -> wf_cont (hget h (ref m)) -> kind_of (hget h (ref m)) <> KOther ->
  (forall k, new_name (hget h (ref m)) uuid key = Some k -> ~ In (Some k) (map fst (entries (hget h (ref m))))) ->
  exists h' m', run uuid h m (Insert i x key) = (h', m', Ok None) /\
    kind_of (hget h' (ref m')) = kind_of (hget h (ref m)) /\ wf_cont (hget h' (ref m')) /\
    inserted i (new_name (hget h (ref m)) uuid key, x) (entries (hget h (ref m))) (entries (hget h' (ref m'))).
Proof.
  intros Hr Hw Hk Hn. cbn [run]. unfold insert_module. destruct (hget h (ref m)) as [l|l|d|t] eqn:Ec; [| | |destruct (Hk eq_refl)].
  - eexists _, _. split; [reflexivity|]. cbn [ref]. rewrite hget_set by exact Hr. split; [reflexivity|]. split; [exact I|].
    cbn [entries new_name]. apply (inserted_map (fun x => (None, x))). apply py_insert_ok.
  - destruct (halloc h (CTup (slice_to l i ++ [x] ++ slice_from l i))) as [h' r] eqn:Eh. eexists _, _. split; [reflexivity|]. cbn [ref].
    pose proof (hget_alloc h (CTup (slice_to l i ++ [x] ++ slice_from l i))) as G. rewrite Eh in G. cbn [fst snd] in G. rewrite G.
    split; [reflexivity|]. split; [exact I|]. cbn [entries new_name]. apply (inserted_map (fun x => (None, x))). apply (py_insert_ok l i x).
  - cbn [new_name] in *. set (k := match key with Some k => k | None => uuid end) in *. specialize (Hn k eq_refl).
    assert (Hk' : ~ In k (dkeys d)).
    { intros G. apply Hn. cbn [entries]. rewrite map_map. cbn [fst]. unfold dkeys in G. apply in_map_iff in G as ([k0 v] & <- & G). apply in_map_iff. exists (k0, v). auto. }
    assert (Hnd : NoDup (dkeys (py_insert d i (k, x)))).
    { unfold py_insert, dkeys in *. rewrite map_app. cbn [map fst].
      apply (Permutation.Permutation_NoDup (l := k :: map fst (firstn (cut (length d) i) d) ++ map fst (skipn (cut (length d) i) d))); [apply Permutation.Permutation_middle|].
      rewrite <- map_app, firstn_skipn. constructor; assumption. }
    rewrite (dict_of_id _ Hnd).
    destruct (halloc h (CDict (py_insert d i (k, x)))) as [h' r] eqn:Eh. eexists _, _. split; [reflexivity|]. cbn [ref].
    pose proof (hget_alloc h (CDict (py_insert d i (k, x)))) as G. rewrite Eh in G. cbn [fst snd] in G. rewrite G.
    split; [reflexivity|]. split; [exact Hnd|]. cbn [entries]. apply (inserted_map (fun kv : string * item => (Some (fst kv), snd kv)) i (k, x)). apply py_insert_ok.
Qed.

Lemma prepend_spec uuid (h : heap) m (x : item) key : ref m < length h -> wf_cont (hget h (ref m)) -> kind_of (hget h (ref m)) <> KOther ->
  (forall k, new_name (hget h (ref m)) uuid key = Some k -> ~ In (Some k) (map fst (entries (hget h (ref m))))) ->
  exists h' m', run uuid h m (Prepend x key) = (h', m', Ok None) /\
    kind_of (hget h' (ref m')) = kind_of (hget h (ref m)) /\
    entries (hget h' (ref m')) = (new_name (hget h (ref m)) uuid key, x) :: entries (hget h (ref m)).
Proof.
  intros Hr Hw Hk Hn. destruct (insert_spec uuid h m 0 x key Hr Hw Hk Hn) as (h' & m' & E & Ek & _ & (a & b & E1 & E2 & P)).
  exists h', m'. split; [exact E|]. split; [exact Ek|]. assert (a = []) as ->. { destruct P as (P & _). destruct a; [reflexivity|]. cbn [length] in P. lia. }
  rewrite E2, E1. reflexivity.
Qed.

Lemma leaves_count (l : list item) : Forall populated l -> length l <= length (concat (map leaves l)).
Proof.
  induction 1 as [|t l (a & Ha) _ IH]; [reflexivity|]. cbn [map concat length]. rewrite app_length.
  apply leaves_has_leaf in Ha. destruct (leaves t); [destruct Ha|]. cbn [length]. lia.
Qed.
Lemma leaves_count_cont (c : cont) : Forall (fun e => populated (snd e)) (entries c) -> length (entries c) <= length (leaves (to_tree c)).
Proof.
  destruct c as [l|l|d|t]; cbn [entries to_tree leaves]; intros H.
  - rewrite map_length. apply leaves_count. rewrite Forall_map in H. exact H.
  - rewrite map_length. apply leaves_count. rewrite Forall_map in H. exact H.
  - rewrite map_length. rewrite Forall_map in H. cbn [snd] in H.
    pose proof (sort_kvs_perm (map (fun kv => (fst kv, leaves (snd kv))) d)) as P.
    assert (E : length (concat (map snd (sort_kvs (map (fun kv => (fst kv, leaves (snd kv))) d)))) = length (concat (map leaves (map snd d)))).
    { transitivity (length (concat (map snd (map (fun kv => (fst kv, leaves (snd kv))) d)))).
      - apply Permutation.Permutation_length. apply (Permutation.Permutation_map snd) in P. revert P. generalize (map snd (sort_kvs (map (fun kv => (fst kv, leaves (snd kv))) d))). 
        generalize (map snd (map (fun kv => (fst kv, leaves (snd kv))) d)). clear. intros l l' P. induction P; cbn [concat]; [constructor|apply Permutation.Permutation_app_head; assumption| |etransitivity; eassumption].
        rewrite !app_assoc. apply Permutation.Permutation_app_tail, Permutation.Permutation_app_comm.
      - rewrite !map_map. reflexivity. }
    rewrite E. rewrite <- (map_length snd d). apply leaves_count. rewrite Forall_map. exact H.
  - cbn [length]; lia.
Qed.
Lemma append_spec uuid (h : heap) m (x : item) key : ref m < length h -> wf_cont (hget h (ref m)) -> kind_of (hget h (ref m)) <> KOther ->
  (forall k, new_name (hget h (ref m)) uuid key = Some k -> ~ In (Some k) (map fst (entries (hget h (ref m))))) ->
  Forall (fun e => populated (snd e)) (entries (hget h (ref m))) ->
  exists h' m', run uuid h m (Append x key) = (h', m', Ok None) /\
    kind_of (hget h' (ref m')) = kind_of (hget h (ref m)) /\
    entries (hget h' (ref m')) = entries (hget h (ref m)) ++ [(new_name (hget h (ref m)) uuid key, x)].
Proof.
  intros Hr Hw Hk Hn Hp. pose proof (leaves_count_cont _ Hp) as HL. set (n := length (leaves (to_tree (hget h (ref m))))) in *.
  destruct (insert_spec uuid h m (Z.of_nat n) x key Hr Hw Hk Hn) as (h' & m' & E & Ek & _ & (a & b & E1 & E2 & P)).
  exists h', m'. split; [exact E|]. split; [exact Ek|]. assert (b = []) as ->.
  { destruct P as (P1 & P2 & _). assert (length a = length (entries (hget h (ref m)))) as EL by (destruct (Nat.eq_dec n (length (entries (hget h (ref m))))); lia).
    rewrite E1, app_length in EL. destruct b; [reflexivity|]. cbn [length] in EL. lia. }
  rewrite app_nil_r in E1. rewrite E2, E1. reflexivity.
Qed.

Lemma in_range_map {A B} (f : A -> B) i l : in_range i (map f l) <-> in_range i l.
Proof. unfold in_range. rewrite map_length. reflexivity. Qed.

Lemma pop_spec (h : heap) m i : ref m < length h -> wf_cont (hget h (ref m)) -> kind_of (hget h (ref m)) <> KOther ->
  in_range i (entries (hget h (ref m))) -> (kind_of (hget h (ref m)) = KTup -> i <> -1)%Z ->
  exists h' m' x name, pop_index h m i = (h', m', Ok (Some x)) /\
    kind_of (hget h' (ref m')) = kind_of (hget h (ref m)) /\ wf_cont (hget h' (ref m')) /\
    removed i (name, x) (entries (hget h (ref m))) (entries (hget h' (ref m'))).
Proof.
  intros Hr Hw Hk Hi Ht. unfold pop_index. destruct (hget h (ref m)) as [l|l|d|t] eqn:Ec; [| | |destruct (Hk eq_refl)]; cbn [entries kind_of] in *.
  - apply in_range_map in Hi. destruct (py_pop_ok l i Hi) as (x & l' & E & R & _). rewrite E. eexists _, _, x, None. split; [reflexivity|]. cbn [ref].
    rewrite hget_set by exact Hr. split; [reflexivity|]. split; [exact I|]. cbn [entries]. apply (removed_map (fun x => (None, x)) i x). exact R.
  - apply in_range_map in Hi. specialize (Ht eq_refl). destruct (index_in_range l i Hi) as (k & E). pose proof (index_ok l i k E) as HP.
    destruct (points_nth l i k HP) as (x & Ex). unfold py_get. rewrite E. cbn [rbind]. rewrite Ex.
    rewrite (slices_pop l i k x E Ex Ht).
    destruct (halloc h (CTup (firstn k l ++ skipn (S k) l))) as [h' r] eqn:Eh. eexists _, _, x, None. split; [reflexivity|]. cbn [ref].
    pose proof (hget_alloc h (CTup (firstn k l ++ skipn (S k) l))) as G. rewrite Eh in G. cbn [fst snd] in G. rewrite G.
    split; [reflexivity|]. split; [exact I|]. cbn [entries]. apply (removed_map (fun x => (None, x)) i x).
    destruct (nth_split' l k x Ex) as [E1 E2]. exists (firstn k l), (skipn (S k) l). rewrite E2. auto.
  - apply in_range_map in Hi. destruct (py_pop_ok d i Hi) as ([k x] & d' & E & R & _). rewrite E.
    assert (Hnd : NoDup (dkeys d')).
    { destruct R as (a & b & -> & -> & _). cbn [wf_cont] in Hw. unfold dkeys in *. rewrite map_app in *. cbn [map] in Hw. eapply NoDup_remove_1. exact Hw. }
    rewrite (dict_of_id _ Hnd). cbn [snd].
    destruct (halloc h (CDict d')) as [h' r] eqn:Eh. eexists _, _, x, (Some k). split; [reflexivity|]. cbn [ref].
    pose proof (hget_alloc h (CDict d')) as G. rewrite Eh in G. cbn [fst snd] in G. rewrite G.
    split; [reflexivity|]. split; [exact Hnd|]. cbn [entries]. apply (removed_map (fun kv : string * item => (Some (fst kv), snd kv)) i (k, x)). exact R.
Qed.

Lemma filter_all {A} (f : A -> bool) l : Forall (fun x => f x = true) l -> filter f l = l.
Proof. induction 1 as [|x l H _ IH]; [reflexivity|]. cbn. rewrite H, IH. reflexivity. Qed.
Lemma ddel_split {V} (a : list (string * V)) k v b : NoDup (dkeys (a ++ (k, v) :: b)) -> ddel (a ++ (k, v) :: b) k = a ++ b.
Proof.
  intros H. unfold ddel. rewrite filter_app. cbn [filter fst]. rewrite String.eqb_refl. cbn [negb].
  unfold dkeys in H. rewrite map_app in H. cbn [map fst] in H. apply NoDup_remove_2 in H. rewrite in_app_iff in H.
  rewrite !filter_all; [reflexivity| |]; rewrite Forall_forall; intros [k0 v0] Hin; cbn [fst]; destruct (String.eqb_spec k0 k) as [->|]; try reflexivity; exfalso; apply H.
  - right. apply in_map_iff. exists (k, v0). auto.
  - left. apply in_map_iff. exists (k, v0). auto.
Qed.
Lemma dget_split {V} (d : list (string * V)) k v : dget d k = Some v -> exists a b, d = a ++ (k, v) :: b.
Proof. intros H. apply dget_In in H. apply in_split in H. exact H. Qed.

Lemma pop_key_spec uuid (h : heap) m d k x : ref m < length h -> hget h (ref m) = CDict d -> NoDup (dkeys d) -> dget d k = Some x ->
  exists h' m' a b, run uuid h m (PopKey k) = (h', m', Ok (Some x)) /\ d = a ++ (k, x) :: b /\ hget h' (ref m') = CDict (a ++ b).
Proof.
  intros Hr Ec Hnd Hx. destruct (dget_split d k x Hx) as (a & b & E). cbn [run]. rewrite Ec, Hx.
  eexists _, _, a, b. split; [reflexivity|]. split; [exact E|]. cbn [ref]. rewrite hget_set by exact Hr. rewrite E in *. rewrite (ddel_split a k x b Hnd). reflexivity.
Qed.

Lemma set_idx_spec uuid (h : heap) m l i (x : item) : ref m < length h -> hget h (ref m) = CList l -> in_range i l ->
  exists h' m' l', run uuid h m (SetIdx i x) = (h', m', Ok None) /\ hget h' (ref m') = CList l' /\ replaced i x l l'.
Proof.
  intros Hr Ec Hi. cbn [run]. rewrite Ec. destruct (py_set_ok l i x Hi) as (l' & E & R). rewrite E. eexists _, _, l'. split; [reflexivity|].
  cbn [ref]. rewrite hget_set by exact Hr. split; [reflexivity|exact R].
Qed.
Lemma set_key_spec uuid (h : heap) m d k y (x : item) : ref m < length h -> hget h (ref m) = CDict d -> NoDup (dkeys d) -> dget d k = Some y ->
  exists h' m' a b, run uuid h m (SetKey k x) = (h', m', Ok None) /\ d = a ++ (k, y) :: b /\ hget h' (ref m') = CDict (a ++ (k, x) :: b).
Proof.
  intros Hr Ec Hnd Hy. cbn [run]. rewrite Ec. destruct (dget_split d k y Hy) as (a & b & E). eexists _, _, a, b. split; [reflexivity|]. split; [exact E|].
  cbn [ref]. rewrite hget_set by exact Hr. f_equal. subst d. clear - Hnd. unfold dkeys in Hnd. rewrite map_app in Hnd. cbn [map fst] in Hnd. apply NoDup_remove_2 in Hnd.
  rewrite in_app_iff in Hnd. induction a as [|[k0 v0] a IH]; cbn [app dset]; [rewrite String.eqb_refl; reflexivity|].
  cbn [map fst In] in Hnd. destruct (String.eqb_spec k k0) as [->|]; [tauto|]. f_equal. apply IH. tauto.
Qed.

(** what no operation does *)
Lemma run_frame uuid (h : heap) m o h' m' res : ref m < length h -> run uuid h m o = (h', m', res) ->
  compiled m' = false /\ ref m' < length h' /\
  (forall r, r < length h -> r <> ref m -> hget h' r = hget h r) /\
  (forall e, res = Err e -> h' = h /\ ref m' = ref m).
Proof.
  assert (Hfail : forall e h' m' res, ref m < length h -> (h, mk_model (ref m) false, Err e : result (option item)) = (h', m', res) ->
    compiled m' = false /\ ref m' < length h' /\ (forall r, r < length h -> r <> ref m -> hget h' r = hget h r) /\ (forall e, res = Err e -> h' = h /\ ref m' = ref m)).
  { intros e h0 m0 r0 Hr E. injection E as <- <- <-. cbn [compiled ref]. auto. }
  assert (Hset : forall c (o : option item) h' m' res, ref m < length h -> (hset h (ref m) c, mk_model (ref m) false, Ok o) = (h', m', res) ->
    compiled m' = false /\ ref m' < length h' /\ (forall r, r < length h -> r <> ref m -> hget h' r = hget h r) /\ (forall e, res = Err e -> h' = h /\ ref m' = ref m)).
  { intros c o0 h0 m0 r0 Hr E. injection E as <- <- <-. cbn [compiled ref]. split; [reflexivity|]. split; [unfold hset; rewrite upd_length; exact Hr|].
    split; [intros r _ Hne; apply hget_set_other; congruence|]. intros e E. discriminate. }
  assert (Hall : forall c (o : option item) h' m' res, ref m < length h -> (let '(h1, r) := halloc h c in (h1, mk_model r false, Ok o)) = (h', m', res) ->
    compiled m' = false /\ ref m' < length h' /\ (forall r, r < length h -> r <> ref m -> hget h' r = hget h r) /\ (forall e, res = Err e -> h' = h /\ ref m' = ref m)).
  { intros c o0 h0 m0 r0 Hr E. cbn [halloc] in E. injection E as <- <- <-. cbn [compiled ref]. split; [reflexivity|]. split; [rewrite app_length; cbn; lia|].
    split; [intros r Hl _; apply (hget_alloc_old h c); exact Hl|]. intros e E. discriminate. }
  assert (Hins : forall i x key h' m' res, ref m < length h -> insert_module uuid h m i x key = (h', m', res) ->
    compiled m' = false /\ ref m' < length h' /\ (forall r, r < length h -> r <> ref m -> hget h' r = hget h r) /\ (forall e, res = Err e -> h' = h /\ ref m' = ref m)).
  { intros i x key h0 m0 r0 Hr. unfold insert_module. destruct (hget h (ref m)); eauto. }
  assert (Hpop : forall i h' m' res, ref m < length h -> pop_index h m i = (h', m', res) ->
    compiled m' = false /\ ref m' < length h' /\ (forall r, r < length h -> r <> ref m -> hget h' r = hget h r) /\ (forall e, res = Err e -> h' = h /\ ref m' = ref m)).
  { intros i h0 m0 r0 Hr. unfold pop_index. destruct (hget h (ref m)) as [l|l|d|t]; eauto.
    - destruct (py_pop l i) as [[x l']|e]; eauto.
    - destruct (py_get l i) as [x|e]; eauto.
    - destruct (py_pop d i) as [[x l']|e]; eauto. }
  intros Hr. destruct o as [k x|i x|c|i x key|x key|x key|i|k|i]; cbn [run]; eauto.
  - destruct (hget h (ref m)); eauto.
  - destruct (hget h (ref m)); eauto. destruct (py_set l i x); eauto.
  - destruct (hget h (ref m)) as [l|l|d|t]; eauto. destruct (dget d k); eauto.
  - destruct (hget h (ref m)); eauto.
Qed.

Lemma runs_not_compiled uuids os : forall (h : heap) m, ref m < length h -> os <> [] -> compiled (snd (runs uuids h m os)) = false.
Proof.
  assert (HG : forall os (h : heap) m, ref m < length h -> compiled m = false -> compiled (snd (runs uuids h m os)) = false).
  { clear os. induction os as [|o os IH]; intros h m Hr Hc; cbn [runs]; [exact Hc|]. destruct (run (uuids (length (o :: os))) h m o) as [[h' m'] res] eqn:E.
    destruct (run_frame _ _ _ _ _ _ _ Hr E) as (G1 & G2 & _). apply IH; assumption. }
  destruct os as [|o os]; intros h m Hr Hne; [contradiction|]. cbn [runs]. destruct (run (uuids (length (o :: os))) h m o) as [[h' m'] res] eqn:E.
  destruct (run_frame _ _ _ _ _ _ _ Hr E) as (G1 & G2 & _). apply HG; assumption.
Qed.

Lemma pop_out_of_range (h : heap) m i : kind_of (hget h (ref m)) <> KOther -> ~ in_range i (entries (hget h (ref m))) ->
  pop_index h m i = (h, mk_model (ref m) false, Err IndexError).
Proof.
  intros Hk Hi. unfold pop_index. destruct (hget h (ref m)) as [l|l|d|t]; [| | |destruct (Hk eq_refl)]; cbn [entries] in Hi; rewrite in_range_map in Hi.
  - unfold py_pop. rewrite (index_out l i Hi). reflexivity.
  - unfold py_get. rewrite (index_out l i Hi). reflexivity.
  - unfold py_pop. rewrite (index_out d i Hi). reflexivity.
Qed.
End Ops.

Section Add.
Context {M : Type}.
Notation cont := (cont M). Notation item := (item M). Notation heap := (heap M).

Lemma add_spec uuid (h : heap) a (other : item) h' s : ref a < length h -> wf_cont (hget h (ref a)) ->
  kind_of (hget h (ref a)) = KTup \/ kind_of (hget h (ref a)) = KDict ->
  (forall k, new_name (hget h (ref a)) uuid None = Some k -> ~ In (Some k) (map fst (entries (hget h (ref a))))) ->
  Forall (fun e => populated (snd e)) (entries (hget h (ref a))) ->
  add uuid h a other = (h', s) ->
  (forall r, r < length h -> hget h' r = hget h r) /\ ref s <> ref a /\ compiled s = false /\
  kind_of (hget h' (ref s)) = kind_of (hget h (ref a)) /\
  entries (hget h' (ref s)) = entries (hget h (ref a)) ++ [(new_name (hget h (ref a)) uuid None, other)].
Proof.
  intros Hr Hw Hk Hn Hp E. unfold add in E.
  assert (Hk' : kind_of (hget h (ref a)) <> KOther) by (destruct Hk as [-> | ->]; discriminate).
  destruct (append_spec uuid h (mk_model (ref a) false) other None Hr Hw Hk' Hn Hp) as (h0 & m0 & E0 & E1 & E2).
  rewrite E0 in E. injection E as <- <-. cbn [ref] in *.
  destruct (run_frame _ _ _ _ _ _ _ (Hr : ref (mk_model (ref a) false) < length h) E0) as (G1 & _ & G2 & _).
  assert (Hnew : ref m0 = length h /\ hget h0 (ref a) = hget h (ref a)).
  { cbn [run ref] in E0. unfold insert_module in E0. cbn [ref] in E0. destruct (hget h (ref a)) eqn:Ec; cbn [kind_of] in Hk; try (destruct Hk; discriminate);
      cbn [halloc] in E0; injection E0 as <- <-; cbn [ref]; (split; [reflexivity|]); rewrite <- Ec; unfold hget; apply app_nth1; exact Hr. }
  destruct Hnew as [N1 N2]. split; [|split; [lia|]; split; [exact G1|]; split; [exact E1|exact E2]].
  intros r Hl. destruct (Nat.eq_dec r (ref a)) as [->|Hne]; [exact N2|]. apply G2; [exact Hl|exact Hne].
Qed.
End Add.
