(** Property C129: sequential models inside sequential models. *)
From Verif Require Import Base BaseLemmas TreeUtil Seq ChainSpec ChainProofs Nested NestedSpec Props_NonSeq Props_Seq.
Local Open Scope list_scope.

Scheme written_mut := Induction for written Sort Prop with all_written_mut := Induction for all_written Sort Prop.

(** the keys of the modules *)
Fixpoint nested_keys {Rng M} (split_rng : Rng -> nat -> list Rng) (x : nest M) (r : Rng) : list Rng :=
  match x with
  | One _ => [r]
  | Sub xs =>
      (fix go (xs : list (nest M)) (ks : list Rng) : list Rng :=
         match xs, ks with x :: xs', k :: ks' => nested_keys split_rng x k ++ go xs' ks' | _, _ => [] end) xs (split_rng r (length xs))
  end.
Fixpoint list_keys {Rng M} (split_rng : Rng -> nat -> list Rng) (xs : list (nest M)) (ks : list Rng) : list Rng :=
  match xs, ks with x :: xs', k :: ks' => nested_keys split_rng x k ++ list_keys split_rng xs' ks' | _, _ => [] end.
Lemma nested_keys_sub {Rng M} split_rng (xs : list (nest M)) (r : Rng) :
  nested_keys split_rng (Sub xs) r = list_keys split_rng xs (split_rng r (length xs)).
Proof. cbn [nested_keys]. generalize (split_rng r (length xs)). induction xs as [|x xs IH]; intros [|k ks]; cbn; try reflexivity. rewrite IH. reflexivity. Qed.

Section Nest.
Context {A Rng M : Type}.
Context (call : M -> tree A -> tree A -> bool -> tree A -> Rng -> result (tree A * tree A)).
Context (split_rng : Rng -> nat -> list Rng) (Hsplit : forall r n, length (split_rng r n) = n).
Notation run := (ran call).
Notation item := (M * (tree A * tree A))%type.

Lemma ran_app tr ks1 l1 d ns1 d1 ks2 l2 ns2 out : length ks1 = length l1 ->
  run tr ks1 l1 d ns1 d1 -> run tr ks2 l2 d1 ns2 out -> run tr (ks1 ++ ks2) (l1 ++ l2) d (ns1 ++ ns2) out.
Proof.
  intros L H. revert L. induction H as [rs d|r rs m mp ms l d d2 ns nss o Hc Hr IH]; intros L H2; cbn in L.
  - destruct rs; [exact H2|discriminate].
  - cbn [app]. apply (ran_cons call tr r (rs ++ ks2) m mp ms (l ++ l2) d d2 ns (nss ++ ns2) out Hc). apply IH; [congruence|exact H2].
Qed.
Lemma ran_split tr ks1 l1 : forall d ks2 l2 ns out, length ks1 = length l1 -> run tr (ks1 ++ ks2) (l1 ++ l2) d ns out ->
  exists ns1 ns2 d1, ns = ns1 ++ ns2 /\ run tr ks1 l1 d ns1 d1 /\ run tr ks2 l2 d1 ns2 out.
Proof.
  revert l1. induction ks1 as [|k ks1 IH]; intros [|it l1] d ks2 l2 ns out L H; try discriminate.
  - exists [], ns, d. split; [reflexivity|]. split; [constructor|exact H].
  - cbn [app] in H. inversion H as [|r rs m mp ms l d0 d2 n nss o Hc Hr]; subst. cbn in L.
    destruct (IH l1 d2 ks2 l2 nss out ltac:(congruence) Hr) as (ns1 & ns2 & d1 & -> & R1 & R2).
    exists (n :: ns1), ns2, d1. split; [reflexivity|]. split; [exact (ran_cons call tr k ks1 m mp ms l1 d d2 n ns1 d1 Hc R1)|exact R2].
Qed.
Lemma renew_app (l1 : list item) : forall l2 ns1 ns2, length ns1 = length l1 -> renew (l1 ++ l2) (ns1 ++ ns2) = renew l1 ns1 ++ renew l2 ns2.
Proof.
  induction l1 as [|[m [p s]] l1 IH]; intros l2 [|n ns1] ns2 L; try discriminate; [reflexivity|]. cbn. f_equal. apply IH. cbn in L. congruence.
Qed.
Lemma keys_length (x : nest M) (p s : tree A) l : written x p s l -> forall r, length (nested_keys split_rng x r) = length l.
Proof.
  apply (written_mut A M (fun (x : nest M) p s l _ => forall r, length (nested_keys split_rng x r) = length l)
    (fun (xs : list (nest M)) ps ss l _ => forall ks, length ks = length xs -> length (list_keys split_rng xs ks) = length l)).
  - reflexivity.
  - intros xs ps ss l' _ IH r. rewrite nested_keys_sub. apply IH, Hsplit.
  - intros [|]; [reflexivity|discriminate].
  - intros y q t l1 xs ps ss l2 _ _ IH1 _ IH2 [|k ks] L; [discriminate|]. cbn [list_keys]. rewrite !app_length, IH1, IH2; [reflexivity|cbn in L; congruence].
Qed.
Lemma written_lengths xs ps ss (l : list item) : all_written xs ps ss l -> length ps = length xs /\ length ss = length xs /\ Forall (fun p => p <> NoneT) ps.
Proof.
  revert ps ss l. induction xs as [|x xs IH]; intros ps ss l H; inversion H; subst; [auto|].
  match goal with K : all_written xs _ _ _ |- _ => destruct (IH _ _ _ K) as (A1 & A2 & A3) end. cbn. split; [congruence|]. split; [congruence|]. constructor; assumption.
Qed.

(** what the callable of a nested model does: the modules that are not models, one
    after the other *)
Lemma nested_run d : forall x p s l, written x p s l -> depth x <= d -> forall data tr r out st',
  (ncall call split_rng d x p data tr s r = Ok (out, st') ->
    exists ns, run tr (nested_keys split_rng x r) l data ns out /\ written x p st' (renew l ns)) /\
  (forall ns, run tr (nested_keys split_rng x r) l data ns out ->
    exists st, ncall call split_rng d x p data tr s r = Ok (out, st) /\ written x p st (renew l ns)).
Proof.
  induction d as [|d IH]; intros x p s l H Hd data tr r out st'.
  - inversion H as [m q t E1 E2 E3 E4|xs ps ss l0 AW]; subst; cbn [depth] in Hd; [|exfalso; lia].
    cbn [ncall nested_keys]. split.
    + intros E. exists [st']. split; [exact (ran_cons call tr r [] m p s [] data out st' [] out E (ran_nil _ _ _ _))|constructor].
    + intros ns R. inversion R as [|r0 rs m0 mp ms l0 d0 d1 n nss o Hc Hr]; subst. inversion Hr; subst. exists n. split; [exact Hc|constructor].
  - inversion H as [m q t E1 E2 E3 E4|xs ps ss l0 AW]; subst.
    + cbn [ncall nested_keys]. split.
      * intros E. exists [st']. split; [exact (ran_cons call tr r [] m p s [] data out st' [] out E (ran_nil _ _ _ _))|constructor].
      * intros ns R. inversion R as [|r0 rs m0 mp ms l0 d0 d1 n nss o Hc Hr]; subst. inversion Hr; subst. exists n. split; [exact Hc|constructor].
    + cbn [ncall]. rewrite nested_keys_sub. destruct (written_lengths _ _ _ _ AW) as (L1 & L2 & NN).
      assert (D : forall x, In x xs -> depth x <= d).
      { intros x Hx. cbn [depth] in Hd. apply Nat.succ_le_mono in Hd. eapply Nat.le_trans; [|exact Hd]. clear - Hx.
        induction xs as [|y xs IH]; [destruct Hx|]. cbn. destruct Hx as [ <- |Hx]; [lia|]. specialize (IH Hx). lia. }
      assert (K : forall xs ps ss l, all_written xs ps ss l -> (forall x, In x xs -> depth x <= d) -> forall ks data, length ks = length xs ->
        (forall nss, ran (ncall call split_rng d) tr ks (zip3 xs ps ss) data nss out -> exists ns, run tr (list_keys split_rng xs ks) l data ns out /\ all_written xs ps nss (renew l ns)) /\
        (forall ns, run tr (list_keys split_rng xs ks) l data ns out -> exists nss, ran (ncall call split_rng d) tr ks (zip3 xs ps ss) data nss out /\ all_written xs ps nss (renew l ns))).
      { clear - IH Hsplit. induction xs as [|x xs IHx]; intros ps ss l AW D ks data Lk; inversion AW as [|x0 p s l1 xs0 ps' ss' l2 Np W AW']; subst.
        - split.
          + intros nss R. inversion R; subst. exists []. split; constructor.
          + intros ns R. cbn [list_keys] in R. inversion R; subst. exists []. split; constructor.
        - destruct ks as [|k ks]; [discriminate|]. cbn in Lk. injection Lk as Lk. cbn [zip3 list_keys].
          assert (LK : length (nested_keys split_rng x k) = length l1) by exact (keys_length _ _ _ _ W k).
          split.
          + intros nss R. inversion R as [|r0 rs m0 mp ms l0 d0 d1 n nss' o Hc Hr]; subst.
            destruct (proj1 (IH x p s l1 W (D x (or_introl eq_refl)) data tr k d1 n) Hc) as (ns1 & R1 & W1).
            destruct (proj1 (IHx ps' ss' l2 AW' (fun y Hy => D y (or_intror Hy)) ks d1 Lk) nss' Hr) as (ns2 & R2 & W2).
            exists (ns1 ++ ns2). split; [exact (ran_app _ _ _ _ _ _ _ _ _ _ LK R1 R2)|].
            rewrite renew_app by exact (ran_len _ _ _ _ _ _ _ R1). constructor; assumption.
          + intros ns R. destruct (ran_split _ _ _ _ _ _ _ _ LK R) as (ns1 & ns2 & d1 & -> & R1 & R2).
            destruct (proj2 (IH x p s l1 W (D x (or_introl eq_refl)) data tr k d1 NoneT) ns1 R1) as (n & Hc & W1).
            destruct (proj2 (IHx ps' ss' l2 AW' (fun y Hy => D y (or_intror Hy)) ks d1 Lk) ns2 R2) as (nss & Hr & W2).
            exists (n :: nss). split; [exact (ran_cons _ tr k ks x p s _ data d1 n nss out Hc Hr)|].
            rewrite renew_app by exact (ran_len _ _ _ _ _ _ _ R1). constructor; assumption. }
      specialize (K xs ps ss l AW D (split_rng r (length xs)) data (Hsplit r (length xs))). destruct K as [K1 K2]. split.
      * intros E. apply (proj1 (seq_ran (ncall call split_rng d) split_rng Hsplit xs ps ss data tr r out st' L1 L2 NN)) in E. destruct E as (nss & -> & R).
        destruct (K1 nss R) as (ns & R' & W'). exists ns. split; [exact R'|constructor; exact W'].
      * intros ns R. destruct (K2 ns R) as (nss & R' & W'). exists (Lst nss). split; [|constructor; exact W'].
        apply (proj2 (seq_ran (ncall call split_rng d) split_rng Hsplit xs ps ss data tr r out (Lst nss) L1 L2 NN)). exists nss. split; [reflexivity|exact R'].
Qed.

Lemma written_params (x : nest M) (p s : tree A) l : written x p s l -> p <> NoneT -> Forall (fun it : item => fst (snd it) <> NoneT) l.
Proof.
  apply (written_mut A M (fun (x : nest M) p s l _ => p <> NoneT -> Forall (fun it : item => fst (snd it) <> NoneT) l)
    (fun (xs : list (nest M)) ps ss l _ => Forall (fun it : item => fst (snd it) <> NoneT) l)).
  - intros m q t N. constructor; [exact N|constructor].
  - auto.
  - constructor.
  - intros y q t l1 xs ps ss l2 N W IH1 AW IH2. apply Forall_app. auto.
Qed.
Lemma zip3_back (l : list item) : zip3 (map fst l) (map (fun it => fst (snd it)) l) (map (fun it => snd (snd it)) l) = l.
Proof. induction l as [|[m [p s]] l IH]; cbn; [reflexivity|]. f_equal. exact IH. Qed.
Lemma ran_keys (Hrng : forall m mp d tr ms r1 r2, call m mp d tr ms r1 = call m mp d tr ms r2) tr l : forall ks ks' d ns out,
  length ks' = length l -> run tr ks l d ns out -> run tr ks' l d ns out.
Proof.
  induction l as [|it l IH]; intros ks ks' d ns out L H; inversion H as [|r0 rs m0 mp ms l0 d0 d1 n nss o Hc Hr]; subst; [constructor|].
  destruct ks' as [|k' ks']; [discriminate|]. cbn in L. apply (ran_cons call tr k' ks' m0 mp ms l d d1 n nss out).
  - rewrite <- Hc. apply Hrng.
  - exact (IH rs ks' d1 nss out ltac:(congruence) Hr).
Qed.
End Nest.

(* ------------------------------------------------------------------ *)
(** C129: a model with models inside, to any depth, gives what the sequential model
    of its innermost modules gives, and stores the same new states for them. *)
Theorem C129_in_place :
  forall (A Rng M : Type) (call : M -> tree A -> tree A -> bool -> tree A -> Rng -> result (tree A * tree A))
    (split_rng : Rng -> nat -> list Rng), (forall r n, length (split_rng r n) = n) ->
  (forall m mp d training ms r1 r2, call m mp d training ms r1 = call m mp d training ms r2) ->
  forall d x params state l, written x params state l -> depth x <= d -> params <> NoneT ->
  forall data training rng rng' out,
  let flat := seq_callable call split_rng (Lst (map Leaf (map fst l))) (Lst (map (fun it => fst (snd it)) l)) data training
                (Lst (map (fun it => snd (snd it)) l)) rng' in
  (forall st', ncall call split_rng d x params data training state rng = Ok (out, st') ->
    exists ns, flat = Ok (out, Lst ns) /\ written x params st' (renew l ns)) /\
  (forall sts, flat = Ok (out, sts) ->
    exists ns st', sts = Lst ns /\ ncall call split_rng d x params data training state rng = Ok (out, st') /\ written x params st' (renew l ns)).
Proof.
  intros A Rng M call split_rng Hs Hr d x params state l W D N data training rng rng' out flat.
  assert (F : forall st, flat = Ok (out, st) <-> exists ns, st = Lst ns /\ ran call training (split_rng rng' (length l)) l data ns out).
  { intros st. unfold flat. rewrite (seq_ran call split_rng Hs); [| | |].
    - rewrite zip3_back, map_length. reflexivity.
    - rewrite !map_length. reflexivity.
    - rewrite !map_length. reflexivity.
    - apply Forall_map. exact (written_params x params state l W N). }
  split.
  - intros st' E. destruct (proj1 (nested_run call split_rng Hs d x params state l W D data training rng out st') E) as (ns & R & W').
    exists ns. split; [|exact W']. apply F. exists ns. split; [reflexivity|]. apply (ran_keys call Hr training l _ _ _ _ _ (Hs _ _) R).
  - intros sts E. apply F in E as (ns & -> & R). exists ns.
    destruct (proj2 (nested_run call split_rng Hs d x params state l W D data training rng out NoneT) ns) as (st & E & W').
    + apply (ran_keys call Hr training l _ _ _ _ _ (keys_length split_rng Hs x params state l W rng) R).
    + exists st. auto.
Qed.

(** With modules that use random numbers the same holds but for their keys: they
    get the keys of the nested splits instead of those of one split. *)
Theorem C129_keys :
  forall (A Rng M : Type) (call : M -> tree A -> tree A -> bool -> tree A -> Rng -> result (tree A * tree A))
    (split_rng : Rng -> nat -> list Rng), (forall r n, length (split_rng r n) = n) ->
  forall d x params state l, written x params state l -> depth x <= d ->
  forall data training rng out st',
  ncall call split_rng d x params data training state rng = Ok (out, st') ->
  exists ns, ran call training (nested_keys split_rng x rng) l data ns out /\ written x params st' (renew l ns).
Proof.
  intros A Rng M call split_rng Hs d x params state l W D data training rng out st' E.
  exact (proj1 (nested_run call split_rng Hs d x params state l W D data training rng out st') E).
Qed.

(** *** example: [[a, [b]], c] *)
Definition kcall (m : nat) (mp data : tree nat) (training : bool) (ms : tree nat) (rng : nat) : result (tree nat * tree nat) :=
  Ok (Leaf (2 * tsum data + m + tsum mp), Leaf (tsum ms + tsum data)).
Definition nmods : nest nat := Sub [Sub [One 1; Sub [One 2]]; One 3].
Definition nparams : tree nat := Lst [Lst [Leaf 10; Lst [Tup []]]; Leaf 30].
Definition nstate : tree nat := Lst [Lst [Leaf 7; Lst [Leaf 8]]; Leaf 9].
Definition nflat : list (nat * (tree nat * tree nat)) := [(1, (Leaf 10, Leaf 7)); (2, (Tup [], Leaf 8)); (3, (Leaf 30, Leaf 9))].
Lemma nwritten : written nmods nparams nstate nflat.
Proof.
  apply w_sub. apply (aw_cons _ _ _ [(1, (Leaf 10, Leaf 7)); (2, (Tup [], Leaf 8))] _ _ _ [(3, (Leaf 30, Leaf 9))]); [discriminate| |].
  - apply w_sub. apply (aw_cons _ _ _ [(1, (Leaf 10, Leaf 7))] _ _ _ [(2, (Tup [], Leaf 8))]); [discriminate|constructor|].
    apply (aw_cons _ _ _ [(2, (Tup [], Leaf 8))] _ _ _ []); [discriminate| |constructor].
    apply w_sub. apply (aw_cons _ _ _ [(2, (Tup [], Leaf 8))] _ _ _ []); [discriminate|constructor|constructor].
  - apply (aw_cons _ _ _ [(3, (Leaf 30, Leaf 9))] _ _ _ []); [discriminate|constructor|constructor].
Qed.
Example C129_example :
  (forall r n, length (skeys r n) = n) /\ (forall m mp d training ms r1 r2, kcall m mp d training ms r1 = kcall m mp d training ms r2) /\
  written nmods nparams nstate nflat /\ depth nmods <= 3 /\ nparams <> NoneT /\
  ncall kcall skeys 3 nmods nparams (Leaf 4) false nstate 5 = Ok (Leaf 113, Lst [Lst [Leaf 11; Lst [Leaf 27]]; Leaf 49]) /\
  seq_callable kcall skeys (Lst (map Leaf (map fst nflat))) (Lst (map (fun it => fst (snd it)) nflat)) (Leaf 4) false
    (Lst (map (fun it => snd (snd it)) nflat)) 5 = Ok (Leaf 113, Lst [Leaf 11; Leaf 27; Leaf 49]).
Proof.
  split; [exact skeys_len|]. split; [reflexivity|]. split; [exact nwritten|]. split; [cbn; lia|]. split; [discriminate|].
  split; vm_compute; reflexivity.
Qed.

(** Modules that use random numbers do notice whether they are in a model of their
    own. *)
Definition nkeys (r n : nat) : list nat := map (fun i => 2 * r + i + 1) (seq 0 n).
Definition C129_random_always : Prop :=
  forall x params state l, written x params state l -> params <> NoneT -> forall data training rng,
  rmap fst (ncall scall nkeys (depth x) x params data training state rng) =
  rmap fst (seq_callable scall nkeys (Lst (map Leaf (map fst l))) (Lst (map (fun it => fst (snd it)) l)) data training
                (Lst (map (fun it => snd (snd it)) l)) rng).
Theorem C129_random_refuted : ~ C129_random_always.
Proof.
  intros H. specialize (H nmods nparams nstate nflat nwritten ltac:(discriminate) (Leaf 4) false 0). vm_compute in H. discriminate H.
Qed.
Print Assumptions C129_in_place.
Print Assumptions C129_keys.
Print Assumptions C129_random_refuted.
