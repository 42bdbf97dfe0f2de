(** Proofs about resolve_connections (C09, C10). *)
From Verif Require Import Base BaseLemmas Resolve ResolveSpec.
From Coq Require Import Permutation ZifyBool Relations.Operators_Properties.
Open Scope list_scope.

Lemma edge_neighbors g u v : edge g u v <-> In v (neighbors g u).
Proof.
  unfold edge, neighbors. destruct (dget g u) as [vs|].
  - split; [intros [vs' [E H]]; injection E as <-; exact H|intros H; exists vs; auto].
  - split; [intros [vs [E _]]; discriminate|intros []].
Qed.

(* ---------------- depth first search ---------------- *)
Definition weight (g : graph) (visited : list string) : nat :=
  list_sum (map (fun kv => if mem_str (fst kv) visited then 0 else length (snd kv)) g).

Lemma weight_nil g : weight g [] = num_edges g.
Proof. reflexivity. Qed.

Lemma mem_str_app x l1 l2 : mem_str x (l1 ++ l2) = mem_str x l1 || mem_str x l2.
Proof. induction l1 as [|y l1 IH]; simpl; [reflexivity|]. rewrite IH, orb_assoc. reflexivity. Qed.

Lemma weight_add g visited node :
  mem_str node visited = false ->
  weight g (visited ++ [node]) + length (neighbors g node) <= weight g visited.
Proof.
  intros Hn. unfold weight, neighbors.
  induction g as [|[k vs] g IH]; simpl; [lia|].
  rewrite mem_str_app. simpl. rewrite orb_false_r.
  destruct (String.eqb_spec k node) as [->|Hne].
  - rewrite String.eqb_refl, Hn. simpl.
    assert (Hle : list_sum (map (fun kv : string * list string =>
              if mem_str (fst kv) (visited ++ [node]) then 0 else length (snd kv)) g) <=
              list_sum (map (fun kv => if mem_str (fst kv) visited then 0 else length (snd kv)) g)).
    { clear IH. induction g as [|[k' vs'] g IH]; simpl; [lia|].
      rewrite mem_str_app. destruct (mem_str k' visited); simpl; [exact IH|].
      destruct (String.eqb k' node); simpl; lia. }
    lia.
  - destruct (String.eqb_spec node k) as [->|_]; [congruence|].
    rewrite orb_false_r. destruct (mem_str k visited); simpl; lia.
Qed.

Lemma filter_length_le {B} (f : B -> bool) l : length (filter f l) <= length l.
Proof. induction l as [|x l IH]; simpl; [lia|]. destruct (f x); simpl; lia. Qed.

Section Dfs.
Variable g : graph.
Variable k : string.

Definition dfs_inv (stack visited : list string) : Prop :=
  NoDup visited /\
  (forall x, In x visited \/ In x stack -> reach g k x) /\
  (In k visited \/ In k stack) /\
  (forall x y, In x visited -> edge g x y -> In y visited \/ In y stack).

Lemma NoDup_snoc {B} (l : list B) x : NoDup l -> ~ In x l -> NoDup (l ++ [x]).
Proof.
  intros H1 H2. apply (Permutation_NoDup (l := x :: l)); [apply Permutation_cons_append|].
  constructor; assumption.
Qed.

Lemma dfs_spec fuel : forall stack visited,
  dfs_inv stack visited -> length stack + weight g visited <= fuel ->
  exists r, dfs g fuel stack visited = Ok r /\ dfs_inv [] r.
Proof.
  induction fuel as [|f IH]; intros stack visited Hinv Hf.
  - destruct stack; [|simpl in Hf; lia]. exists visited. split; [reflexivity|exact Hinv].
  - destruct stack as [|node stack]; [exists visited; split; [reflexivity|exact Hinv]|].
    cbn [dfs]. destruct (mem_str node visited) eqn:Em.
    + apply IH; [|simpl in Hf; lia]. apply mem_str_In in Em.
      destruct Hinv as [I1 [I2 [I3 I4]]]. split; [exact I1|]. split; [|split].
      * intros x [H|H]; apply I2; simpl; auto.
      * destruct I3 as [H|[->|H]]; auto.
      * intros x y Hx He. destruct (I4 x y Hx He) as [H|[->|H]]; auto.
    + set (visited' := visited ++ [node]).
      set (push := filter (fun nb => negb (mem_str nb visited')) (neighbors g node)).
      apply IH.
      * destruct Hinv as [I1 [I2 [I3 I4]]].
        assert (Hr : reach g k node) by (apply I2; simpl; auto).
        split; [|split; [|split]].
        -- apply NoDup_snoc; [exact I1|]. apply mem_str_false; exact Em.
        -- intros x [H|H].
           ++ apply in_app_or in H as [H|[<-|[]]]; [apply I2; auto|exact Hr].
           ++ apply in_app_or in H as [H|H]; [|apply I2; simpl; auto].
              apply in_rev in H. apply filter_In in H as [H _].
              eapply rt_trans; [exact Hr|]. apply rt_step. apply edge_neighbors. exact H.
        -- destruct I3 as [H|[->|H]].
           ++ left. apply in_or_app; auto.
           ++ left. apply in_or_app; simpl; auto.
           ++ right. apply in_or_app; auto.
        -- intros x y Hx He.
           assert (Hy : In y visited' \/ In y push \/ (In y visited \/ In y (node :: stack)) ).
           { apply in_app_or in Hx as [Hx|[<-|[]]].
             - right; right. apply (I4 x y Hx He).
             - apply edge_neighbors in He. destruct (mem_str y visited') eqn:Ey.
               + left. apply mem_str_In; exact Ey.
               + right; left. apply filter_In. rewrite Ey. auto. }
           destruct Hy as [Hy|[Hy|[Hy|[<-|Hy]]]].
           ++ left; exact Hy.
           ++ right. apply in_or_app. left. apply -> in_rev. exact Hy.
           ++ left. apply in_or_app; auto.
           ++ left. apply in_or_app; simpl; auto.
           ++ right. apply in_or_app; auto.
      * rewrite app_length, rev_length. assert (H1 := weight_add g visited node Em).
        assert (H2 := filter_length_le (fun nb => negb (mem_str nb visited')) (neighbors g node)).
        fold visited' in H1. fold push in H2. simpl in Hf. lia.
Qed.

Lemma closed_reach (r : list string) :
  In k r -> (forall x y, In x r -> edge g x y -> In y r) -> forall x, reach g k x -> In x r.
Proof.
  intros Hk Hc x Hr. apply clos_rt_rtn1 in Hr. induction Hr as [|y z Hyz Hr IH]; [exact Hk|].
  eapply Hc; eauto.
Qed.

Lemma dfs_from_spec :
  exists r, dfs_from g k = Ok r /\ NoDup r /\ forall x, In x r <-> reach g k x.
Proof.
  destruct (dfs_spec (2 + num_edges g) [k] []) as [r [H1 [I1 [I2 [I3 I4]]]]].
  - split; [constructor|]. split; [|split].
    + intros x [[]|[<-|[]]]. apply rt_refl.
    + right; left; reflexivity.
    + intros x y [].
  - rewrite weight_nil. simpl. lia.
  - exists r. split; [exact H1|]. split; [exact I1|]. intros x. split; [intros H; apply I2; auto|].
    apply closed_reach.
    + destruct I3 as [H|[]]; exact H.
    + intros y z Hy He. destruct (I4 y z Hy He) as [H|[]]; exact H.
Qed.
End Dfs.

(* ---------------- the reverse graph ---------------- *)
Lemma neighbors_dset r u vs v :
  neighbors (dset r u vs) v = if String.eqb v u then vs else neighbors r v.
Proof.
  unfold neighbors. destruct (String.eqb_spec v u) as [->|Hne].
  - rewrite dget_dset_same. reflexivity.
  - rewrite dget_dset_other by congruence. reflexivity.
Qed.

Lemma fold_add_rev node nbs : forall r v u,
  In u (neighbors (fold_left (fun r nb => add_rev r node nb) nbs r) v) <->
  In u (neighbors r v) \/ (u = node /\ In v nbs).
Proof.
  induction nbs as [|nb nbs IH]; intros r v u; simpl; [tauto|].
  rewrite IH. unfold add_rev. rewrite neighbors_dset.
  destruct (String.eqb_spec v nb) as [->|Hne].
  - rewrite in_app_iff. simpl. split; [intros [[H|[<-|[]]]|[H1 H2]]; auto|].
    intros [H|[-> [H|H]]]; auto.
  - split; [intros [H|[H1 H2]]; auto|]. intros [H|[-> [H|H]]]; auto. congruence.
Qed.

Lemma In_reverse_graph g v u :
  In u (neighbors (reverse_graph g) v) <-> exists nbs, In (u, nbs) g /\ In v nbs.
Proof.
  unfold reverse_graph.
  assert (H : forall r, In u (neighbors (fold_left (fun r '(node, nbs) =>
       fold_left (fun r nb => add_rev r node nb) nbs r) g r) v) <->
       In u (neighbors r v) \/ exists nbs, In (u, nbs) g /\ In v nbs).
  { induction g as [|[node nbs] g IH]; intros r; simpl.
    - split; [auto|]. intros [H|[nbs [[] _]]]; exact H.
    - rewrite IH, fold_add_rev. split.
      + intros [[H|[-> H]]|[nbs' [H1 H2]]]; [auto|right; exists nbs; auto|right; exists nbs'; auto].
      + intros [H|[nbs' [[E|H1] H2]]]; [auto| |right; exists nbs'; auto].
        injection E as -> ->. left; right; auto. }
  rewrite H. simpl. tauto.
Qed.

Lemma edge_reverse g u v : wf_graph g -> edge (reverse_graph g) v u <-> edge g u v.
Proof.
  intros Hwf. rewrite edge_neighbors, In_reverse_graph. unfold edge. split.
  - intros [nbs [H1 H2]]. exists nbs. split; [apply In_dget; assumption|exact H2].
  - intros [nbs [H1 H2]]. exists nbs. split; [apply dget_In; assumption|exact H2].
Qed.

Lemma reach_reverse g u v : wf_graph g -> reach (reverse_graph g) v u <-> reach g u v.
Proof.
  intros Hwf. split; intros H.
  - induction H as [x y H|x|x y z _ IH1 _ IH2].
    + apply rt_step, edge_reverse; assumption.
    + apply rt_refl.
    + eapply rt_trans; eauto.
  - induction H as [x y H|x|x y z _ IH1 _ IH2].
    + apply rt_step, edge_reverse; assumption.
    + apply rt_refl.
    + eapply rt_trans; eauto.
Qed.

(* ---------------- in-degrees ---------------- *)
Definition cnt (l : list string) (v : string) : nat := count_occ string_dec l v.
Arguments cnt : simpl never.

Lemma cnt_pos l v : In v l <-> 1 <= cnt l v.
Proof. unfold cnt. rewrite (count_occ_In string_dec). lia. Qed.

Lemma deg_get_add d u n v :
  deg_get (deg_add d u n) v = (deg_get d v + if String.eqb v u then n else 0)%Z.
Proof.
  unfold deg_add, deg_get at 1. destruct (String.eqb_spec v u) as [->|Hne].
  - rewrite dget_dset_same. reflexivity.
  - rewrite dget_dset_other by congruence. unfold deg_get. destruct (dget d v); lia.
Qed.

Lemma cnt_cons x l v : cnt (x :: l) v = (if String.eqb v x then 1 else 0) + cnt l v.
Proof.
  unfold cnt. simpl. destruct (string_dec x v) as [->|Hne].
  - rewrite String.eqb_refl. lia.
  - destruct (String.eqb_spec v x); [congruence|lia].
Qed.

Lemma fold_deg_add nbs : forall d v,
  deg_get (fold_left (fun d nb => deg_add d nb 1) nbs d) v = (deg_get d v + Z.of_nat (cnt nbs v))%Z.
Proof.
  induction nbs as [|nb nbs IH]; intros d v; simpl; [unfold cnt; simpl; lia|].
  rewrite IH, deg_get_add, cnt_cons. destruct (String.eqb v nb); lia.
Qed.

Definition sum_cnt (g : graph) (v : string) : nat :=
  list_sum (map (fun kv => cnt (snd kv) v) g).

Lemma in_degrees_spec g v : deg_get (in_degrees g) v = Z.of_nat (sum_cnt g v).
Proof.
  unfold in_degrees, sum_cnt.
  assert (H : forall d, deg_get (fold_left (fun d '(_, nbs) => fold_left (fun d nb => deg_add d nb 1) nbs d) g d) v
              = (deg_get d v + Z.of_nat (list_sum (map (fun kv => cnt (snd kv) v) g)))%Z).
  { induction g as [|[u nbs] g IH]; intros d; simpl; [lia|].
    rewrite IH, fold_deg_add. lia. }
  rewrite H. unfold deg_get. simpl. reflexivity.
Qed.

Definition sum_over (f : string -> nat) (l : list string) : nat := list_sum (map f l).

Lemma sum_over_cons f x l : sum_over f (x :: l) = f x + sum_over f l.
Proof. reflexivity. Qed.

Lemma sum_over_app f l1 l2 : sum_over f (l1 ++ l2) = sum_over f l1 + sum_over f l2.
Proof. unfold sum_over. rewrite map_app, list_sum_app. reflexivity. Qed.

Lemma sum_over_incl f K : forall L,
  NoDup L -> (forall u, In u L -> 0 < f u -> In u K) -> sum_over f L <= sum_over f K.
Proof.
  induction K as [|x K IH]; intros L Hnd Hin.
  - assert (H : sum_over f L = 0); [|unfold sum_over in *; simpl; lia].
    induction L as [|y L IHL]; [reflexivity|]. rewrite sum_over_cons.
    inversion Hnd as [|? ? Hy HndL]; subst.
    rewrite IHL; [|exact HndL|intros u Hu; apply Hin; right; exact Hu].
    destruct (f y) eqn:E; [reflexivity|]. exfalso. apply (Hin y); [left; reflexivity|lia].
  - destruct (in_dec string_dec x L) as [HxL|HxL].
    + apply in_split in HxL as [l1 [l2 ->]].
      rewrite sum_over_app, !sum_over_cons.
      assert (H : sum_over f (l1 ++ l2) <= sum_over f K).
      { apply IH; [eapply NoDup_remove_1; eauto|].
        intros u Hu Hf. assert (Hx : u <> x).
        { intros ->. apply NoDup_remove_2 in Hnd. tauto. }
        destruct (Hin u) as [H|H]; [|exact Hf|congruence|exact H].
        apply in_app_or in Hu. apply in_or_app. simpl. tauto. }
      rewrite sum_over_app in H. lia.
    + rewrite sum_over_cons. assert (H : sum_over f L <= sum_over f K); [|lia].
      apply IH; [exact Hnd|]. intros u Hu Hf. destruct (Hin u Hu Hf) as [<-|H]; [tauto|exact H].
Qed.

Lemma sum_cnt_over g v : wf_graph g -> sum_cnt g v = sum_over (fun u => cnt (neighbors g u) v) (dkeys g).
Proof.
  unfold wf_graph, sum_cnt, sum_over, dkeys. intros Hwf. rewrite map_map. f_equal.
  apply map_ext_in. intros [u vs] Hin. simpl. unfold neighbors.
  rewrite (In_dget g u vs Hwf Hin). reflexivity.
Qed.

Lemma cnt_neighbors_key g u v : 0 < cnt (neighbors g u) v -> In u (dkeys g).
Proof.
  unfold neighbors. destruct (dget g u) as [vs|] eqn:E; [|unfold cnt; simpl; lia].
  intros _. eapply dget_Some_in_keys; eauto.
Qed.

(* ---------------- the queue loop ---------------- *)
Section Kahn.
Variable g : graph.
Hypothesis Hwf : wf_graph g.
Variable s : string.
Hypothesis Hs : forall u, ~ edge g u s.
Variable S : list string.     (* all_nodes *)
Hypothesis HS_edge : forall v, In v S -> v <> s -> exists u, edge g u v.

Definition ec (v u : string) : nat := cnt (neighbors g u) v.

Lemma relax_fold nbs : forall d q d' q',
  fold_left (relax S) nbs (d, q) = (d', q') ->
  (forall v, deg_get d' v = (deg_get d v - if mem_str v S then Z.of_nat (cnt nbs v) else 0)%Z) /\
  exists added, q' = q ++ added /\ NoDup added /\
    forall v, In v added <-> (In v S /\ In v nbs /\ (0 < deg_get d v)%Z /\ (deg_get d' v <= 0)%Z).
Proof.
  induction nbs as [|nb nbs IH]; intros d q d' q' H.
  - injection H as <- <-. split.
    + intros v. unfold cnt; simpl. destruct (mem_str v S); lia.
    + exists []. rewrite app_nil_r. split; [reflexivity|]. split; [constructor|].
      intros v; simpl; tauto.
  - cbn [fold_left] in H. unfold relax at 2 in H. destruct (mem_str nb S) eqn:EnS.
    + set (d1 := deg_add d nb (-1)) in H.
      apply IH in H as [Hd [added [Hq [Hnd Hadd]]]].
      assert (Hd1 : forall v, deg_get d1 v = (deg_get d v + if String.eqb v nb then -1 else 0)%Z)
        by (intros v; apply deg_get_add).
      split.
      { intros v. rewrite Hd, Hd1, cnt_cons. destruct (String.eqb_spec v nb) as [->|].
        - rewrite EnS. lia.
        - destruct (mem_str v S); lia. }
      assert (Hdec : forall v, (deg_get d' v <= deg_get d1 v)%Z)
        by (intros v; rewrite Hd; destruct (mem_str v S); lia).
      assert (Hd1nb : deg_get d1 nb = (deg_get d nb - 1)%Z)
        by (rewrite Hd1, String.eqb_refl; lia).
      destruct (Z.eqb_spec (deg_get d1 nb) 0) as [Hz|Hz].
      * exists (nb :: added). rewrite Hq, <- app_assoc. split; [reflexivity|]. split.
        -- constructor; [|exact Hnd]. rewrite Hadd. intros [_ [_ [H _]]]. lia.
        -- intros v. simpl. rewrite Hadd. split.
           ++ intros [<-|[H1 [H2 [H3 H4]]]].
              ** split; [apply mem_str_In; exact EnS|]. split; [auto|]. specialize (Hdec nb). lia.
              ** split; [exact H1|]. split; [auto|]. split; [|exact H4].
                 rewrite Hd1 in H3. destruct (String.eqb v nb); lia.
           ++ intros [H1 [[<-|H2] [H3 H4]]]; [auto|].
              destruct (String.eqb_spec v nb) as [->|Hne]; [auto|].
              right. split; [exact H1|]. split; [exact H2|]. split; [|exact H4].
              rewrite Hd1. destruct (String.eqb_spec v nb); [congruence|lia].
      * exists added. split; [exact Hq|]. split; [exact Hnd|].
        intros v. rewrite Hadd. simpl. split.
        -- intros [H1 [H2 [H3 H4]]]. split; [exact H1|]. split; [auto|]. split; [|exact H4].
           rewrite Hd1 in H3. destruct (String.eqb v nb); lia.
        -- intros [H1 [H2 [H3 H4]]]. split; [exact H1|].
           destruct (String.eqb_spec v nb) as [->|Hne].
           ++ (* v = nb: after the first decrement still positive, so it occurs again *)
              assert (Hp : (0 < deg_get d1 nb)%Z) by lia.
              split; [|auto]. rewrite Hd, EnS in H4.
              apply cnt_pos. lia.
           ++ destruct H2 as [<-|H2]; [congruence|]. split; [exact H2|]. split; [|exact H4].
              rewrite Hd1. destruct (String.eqb_spec v nb); [congruence|lia].
    + apply IH in H as [Hd [added [Hq [Hnd Hadd]]]]. split.
      * intros v. rewrite Hd, cnt_cons. destruct (String.eqb_spec v nb) as [->|]; [rewrite EnS|]; try lia.
        destruct (mem_str v S); lia.
      * exists added. split; [exact Hq|]. split; [exact Hnd|]. intros v. rewrite Hadd. simpl.
        split; [intros [H1 [H2 H3]]; auto|]. intros [H1 [[<-|H2] H3]]; [|auto].
        apply mem_str_In in H1. congruence.
Qed.

Definition kahn_inv (P q : list string) (d : deg) : Prop :=
  (forall v, In v S -> deg_get d v = (Z.of_nat (sum_cnt g v) - Z.of_nat (sum_over (ec v) P))%Z) /\
  NoDup (P ++ q) /\
  (forall v, In v (P ++ q) -> v = s \/ (In v S /\ (deg_get d v <= 0)%Z)) /\
  (forall v, In v S -> v <> s -> (deg_get d v <= 0)%Z -> In v (P ++ q)) /\
  topological g (P ++ q) /\
  (exists t, P ++ q = s :: t) /\
  (forall v, In v q -> forall u, edge g u v -> In u P).

Lemma kahn_inv_init :
  kahn_inv [] [s] (in_degrees g).
Proof.
  split; [|split; [|split; [|split; [|split; [|split]]]]].
  - intros v _. rewrite in_degrees_spec. unfold sum_over; simpl. lia.
  - constructor; [intros []|constructor].
  - intros v [<-|[]]. auto.
  - intros v Hv Hne Hd. rewrite in_degrees_spec in Hd. exfalso.
    destruct (HS_edge v Hv Hne) as [u [vs [Hu Hin]]]. apply cnt_pos in Hin.
    apply dget_In in Hu. assert (Hle : cnt vs v <= sum_cnt g v); [|lia].
    unfold sum_cnt. clear -Hu. induction g as [|[k ws] g' IH]; simpl in *; [tauto|].
    destruct Hu as [E|Hu]; [injection E as -> ->; lia|]. specialize (IH Hu). lia.
  - intros l1 v l2 E u He. destruct l1 as [|x l1].
    + injection E as <- <-. exfalso; eapply Hs; eauto.
    + simpl in E. injection E as _ E. destruct l1; discriminate.
  - exists []. reflexivity.
  - intros v [<-|[]] u He. exfalso; eapply Hs; eauto.
Qed.

Lemma pred_processed P v u :
  NoDup P -> sum_cnt g v <= sum_over (ec v) P -> edge g u v -> In u P.
Proof.
  intros Hnd Hle He. destruct (in_dec string_dec u P) as [H|H]; [exact H|exfalso].
  rewrite sum_cnt_over in Hle by exact Hwf.
  assert (Hb : sum_over (ec v) (u :: P) <= sum_over (ec v) (dkeys g)).
  { apply sum_over_incl; [constructor; assumption|]. intros w _ Hw. eapply cnt_neighbors_key; exact Hw. }
  rewrite sum_over_cons in Hb. apply edge_neighbors, cnt_pos in He. unfold ec in *. lia.
Qed.

Lemma topological_app P added :
  topological g P -> (forall v, In v added -> forall u, edge g u v -> In u P) ->
  topological g (P ++ added).
Proof.
  intros Ht Ha l1 v l2 E u He.
  assert (Hcase : (exists l3, P = l1 ++ v :: l3) \/ (exists a, l1 = P ++ a /\ In v added)).
  { clear -E. revert l1 E. induction P as [|x P IH]; intros l1 E; simpl in E.
    - right. exists l1. split; [reflexivity|]. rewrite E. apply in_or_app; simpl; auto.
    - destruct l1 as [|y l1]; simpl in E; injection E as -> E.
      + left. exists P. reflexivity.
      + apply IH in E as [[l3 ->]|[a [-> Hv]]]; [left; exists l3; reflexivity|right; exists a; auto]. }
  destruct Hcase as [[l3 EP]|[a [-> Hv]]].
  - eapply Ht; eauto.
  - apply in_or_app. left. eapply Ha; eauto.
Qed.

Lemma kahn_step P node q d d' q' :
  kahn_inv P (node :: q) d ->
  fold_left (relax S) (neighbors g node) (d, q) = (d', q') ->
  kahn_inv (P ++ [node]) q' d'.
Proof.
  intros [J1 [J2 [J3 [J4 [J5 [J6 J7]]]]]] H.
  apply relax_fold in H as [Hd [added [-> [Hnd Hadd]]]].
  assert (Eapp : forall x : list string, (P ++ [node]) ++ q ++ x = (P ++ node :: q) ++ x)
    by (intros x; rewrite <- !app_assoc; reflexivity).
  assert (HndP' : NoDup (P ++ [node])).
  { replace (P ++ node :: q) with ((P ++ [node]) ++ q) in J2 by (rewrite <- app_assoc; reflexivity).
    clear -J2. induction (P ++ [node]) as [|x l IH]; [constructor|]. inversion J2; subst.
    constructor; [|auto]. intros Hx. apply H1. apply in_or_app; auto. }
  assert (J1' : forall v, In v S -> deg_get d' v = (Z.of_nat (sum_cnt g v) - Z.of_nat (sum_over (ec v) (P ++ [node])))%Z).
  { intros v Hv. rewrite Hd, (J1 v Hv), sum_over_app.
    assert (mem_str v S = true) as -> by (apply mem_str_In; exact Hv).
    unfold sum_over, ec. simpl. lia. }
  assert (Hdec : forall v, (deg_get d' v <= deg_get d v)%Z)
    by (intros v; rewrite Hd; destruct (mem_str v S); lia).
  assert (Hpred : forall v, In v added -> forall u, edge g u v -> In u (P ++ [node])).
  { intros v Hv u He. apply Hadd in Hv as [Hv [_ [_ Hle]]].
    apply (pred_processed _ v); [exact HndP'| |exact He]. rewrite (J1' v Hv) in Hle. lia. }
  split; [exact J1'|]. split; [|split; [|split; [|split; [|split]]]].
  - rewrite Eapp. clear Eapp.
    assert (Hdis : forall v, In v added -> ~ In v (P ++ node :: q)).
    { intros v Hv Hin. apply Hadd in Hv as [Hv [Hnb [Hpos _]]].
      destruct (J3 v Hin) as [->|[_ Hle]]; [|lia].
      eapply Hs. apply edge_neighbors. exact Hnb. }
    clear -J2 Hnd Hdis. revert J2 Hdis. generalize (P ++ node :: q) as L.
    induction L as [|x L IH]; intros J2 Hdis; [exact Hnd|]. inversion J2; subst. simpl. constructor.
    + intros Hx. apply in_app_or in Hx as [Hx|Hx]; [tauto|]. apply (Hdis x Hx). left; reflexivity.
    + apply IH; [assumption|]. intros v Hv Hin. apply (Hdis v Hv). right; exact Hin.
  - rewrite Eapp. intros v Hv. apply in_app_or in Hv as [Hv|Hv].
    + destruct (J3 v Hv) as [->|[H1 H2]]; [auto|]. right. split; [exact H1|]. specialize (Hdec v). lia.
    + apply Hadd in Hv as [H1 [_ [_ H2]]]. auto.
  - rewrite Eapp. intros v Hv Hne Hle. apply in_or_app.
    destruct (Z_le_gt_dec (deg_get d v) 0) as [H0|H0]; [left; apply J4; assumption|].
    right. apply Hadd. split; [exact Hv|]. split; [|split; [lia|exact Hle]].
    rewrite Hd in Hle. destruct (mem_str v S); [|lia]. apply cnt_pos. lia.
  - rewrite Eapp. apply topological_app; [exact J5|]. intros v Hv u He.
    apply Hpred with (v := v) in He; [|exact Hv].
    apply in_app_or in He. apply in_or_app. simpl. destruct He as [He|[He|[]]]; auto.
  - rewrite Eapp. destruct J6 as [t ->]. exists (t ++ added). reflexivity.
  - intros v Hv u He. apply in_app_or in Hv as [Hv|Hv]; [|apply (Hpred v); assumption].
    apply in_or_app. left. apply (J7 v); [right; exact Hv|exact He].
Qed.

Definition targets : list string := flat_map snd g.
Lemma targets_length : length targets = num_edges g.
Proof.
  unfold targets, num_edges. clear. induction g as [|kv g' IH]; simpl; [reflexivity|].
  rewrite app_length, IH. reflexivity.
Qed.

Lemma kahn_spec fuel : forall P q d,
  kahn_inv P q d -> 1 + num_edges g < fuel + length P ->
  exists order d', kahn g S fuel q d P = Ok order /\ kahn_inv order [] d'.
Proof.
  induction fuel as [|f IH]; intros P q d Hinv Hf.
  - exfalso. destruct Hinv as [_ [Hnd [H3 _]]].
    assert (Hincl : incl (P ++ q) (s :: targets)).
    { intros v Hv. destruct (H3 v Hv) as [->|[HvS _]]; [left; reflexivity|].
      destruct (string_dec v s) as [->|Hne]; [left; reflexivity|right].
      destruct (HS_edge v HvS Hne) as [u [vs [Hu Hin]]].
      apply in_flat_map. exists (u, vs). split; [apply dget_In; exact Hu|exact Hin]. }
    assert (Hlen := NoDup_incl_length Hnd Hincl). simpl in Hlen.
    rewrite targets_length, app_length in Hlen. lia.
  - destruct q as [|node q].
    + exists P, d. split; [reflexivity|exact Hinv].
    + cbn [kahn]. destruct (fold_left (relax S) (neighbors g node) (d, q)) as [d' q'] eqn:E.
      apply (IH (P ++ [node]) q' d').
      * eapply kahn_step; eauto.
      * rewrite app_length. simpl. lia.
Qed.
End Kahn.

(* ---------------- resolve_connections ---------------- *)
Lemma reach_last_edge g u v : reach g u v -> u <> v -> exists w, edge g w v.
Proof.
  intros H Hne. apply clos_rt_rtn1 in H. destruct H as [|w v He _]; [congruence|]. exists w; exact He.
Qed.

(** the set of nodes computed by the two searches *)
Lemma resolve_unfold g s e :
  wf_graph g -> (forall u, ~ edge g u s) ->
  exists all_nodes vis order d,
    NoDup all_nodes /\ (forall v, In v all_nodes <-> live g s e v) /\
    (forall v, In v vis <-> reach g v e) /\
    kahn_inv g s all_nodes order [] d /\
    resolve_connections g s e =
      (let* _ := validate_resolution order all_nodes s e in Ok (order, vis)).
Proof.
  intros Hwf Hs.
  destruct (dfs_from_spec g s) as [r [Er [Hr1 Hr2]]].
  destruct (dfs_from_spec (reverse_graph g) e) as [rr [Err [Hrr1 Hrr2]]].
  set (S := filter (fun v => mem_str v rr) r).
  assert (HS : forall v, In v S <-> live g s e v).
  { intros v. unfold S. rewrite filter_In, mem_str_In, Hr2, Hrr2, reach_reverse by exact Hwf.
    unfold live. tauto. }
  destruct (kahn_spec g Hwf s Hs S) with (fuel := 2 + num_edges g) (P := @nil string) (q := [s]) (d := in_degrees g)
    as [order [d [Ek Hk]]].
  - intros v Hv Hne. apply HS in Hv as [Hv _]. eapply reach_last_edge; [exact Hv|congruence].
  - apply kahn_inv_init; [exact Hs|]. intros v Hv Hne. apply HS in Hv as [Hv _].
    eapply reach_last_edge; [exact Hv|congruence].
  - simpl. lia.
  - exists S, rr, order, d. split; [apply NoDup_filter; exact Hr1|]. split; [exact HS|].
    split; [intros v; rewrite Hrr2; apply reach_reverse; exact Hwf|]. split; [exact Hk|].
    unfold resolve_connections. rewrite Er. cbn [rbind]. rewrite Err. cbn [rbind]. fold S.
    rewrite Ek. reflexivity.
Qed.

Lemma validate_ok order all s e u :
  validate_resolution order all s e = Ok u ->
  length order = length all /\ hd EmptyString order = s /\ last order EmptyString = e.
Proof.
  unfold validate_resolution.
  destruct (Nat.eqb_spec (length order) (length all)) as [H1|]; [|discriminate].
  destruct (String.eqb_spec (hd EmptyString order) s) as [H2|]; [|discriminate].
  destruct (String.eqb_spec (last order EmptyString) e) as [H3|]; [|discriminate].
  auto.
Qed.

(** Soundness (C09). *)
Lemma resolve_sound g s e order vis :
  wf_graph g -> (forall u, ~ edge g u s) ->
  resolve_connections g s e = Ok (order, vis) ->
  NoDup order /\ (forall v, In v order <-> live g s e v) /\
  (exists mid, order = s :: mid) /\ last order EmptyString = e /\
  topological g order /\ (forall v, In v vis <-> reach g v e).
Proof.
  intros Hwf Hs H.
  destruct (resolve_unfold g s e Hwf Hs) as [S [vis' [order' [d [HndS [HS [Hvis [Hk Eq]]]]]]]].
  rewrite Eq in H. apply rbind_ok in H as [u [Hv H]]. injection H as -> ->.
  apply validate_ok in Hv as [Hlen [Hhd Hlast]].
  destruct Hk as [_ [J2 [J3 [J4 [J5 [J6 _]]]]]]. rewrite app_nil_r in *.
  assert (Hincl : incl order (s :: S)).
  { intros v Hv. destruct (J3 v Hv) as [->|[H _]]; simpl; auto. }
  assert (HsS : In s S).
  { destruct (in_dec string_dec s S) as [H|H]; [exact H|exfalso].
    (* then no node is live, so S is empty, but order contains s *)
    destruct S as [|x S']; [|].
    - destruct J6 as [t ->]. discriminate.
    - apply H. apply HS. assert (Hx : live g s e x) by (apply HS; left; reflexivity).
      split; [apply rt_refl|]. destruct Hx as [H1 H2]. eapply rt_trans; eauto. }
  assert (Hincl' : incl order S).
  { intros v Hv. destruct (Hincl v Hv) as [<-|H]; assumption. }
  assert (Hincl2 : incl S order).
  { apply NoDup_length_incl; [exact J2|lia|exact Hincl']. }
  split; [exact J2|]. split.
  { intros v. rewrite <- HS. split; [apply Hincl'|apply Hincl2]. }
  split; [exact J6|]. split; [exact Hlast|]. split; [exact J5|]. exact Hvis.
Qed.

(* ---------------- completeness (C10) ---------------- *)
Lemma chain_cycle (R : string -> string -> Prop) (L : list string) :
  L <> [] -> (forall v, In v L -> exists u, In u L /\ R u v) ->
  exists v, In v L /\ clos_trans _ R v v.
Proof.
  intros Hne Hpred.
  (* backward chains of every length inside L *)
  assert (Hch : forall n, exists c, length c = S n /\ incl c L /\
     forall l1 x l2 y l3, c = l1 ++ x :: l2 ++ y :: l3 -> clos_trans _ R x y).
  { induction n as [|n [c [Hl [Hi Hc]]]].
    - destruct L as [|x L]; [congruence|]. exists [x]. split; [reflexivity|]. split.
      + intros y [<-|[]]; left; reflexivity.
      + intros l1 a l2 b l3 E. apply (f_equal (@List.length _)) in E.
        rewrite app_length in E. simpl in E. rewrite app_length in E. simpl in E. lia.
    - destruct c as [|x c]; [discriminate|].
      destruct (Hpred x) as [u [Hu HR]]; [apply Hi; left; reflexivity|].
      exists (u :: x :: c). split; [simpl in *; lia|]. split.
      + intros y [<-|Hy]; [exact Hu|apply Hi; exact Hy].
      + intros l1 a l2 b l3 E. destruct l1 as [|y l1]; simpl in E.
        * injection E as <- E. destruct l2 as [|y l2]; simpl in E; injection E as -> E.
          -- apply t_step; exact HR.
          -- eapply t_trans; [apply t_step; exact HR|].
             apply (Hc [] y l2 b l3). simpl. rewrite E. reflexivity.
        * injection E as _ E. apply (Hc l1 a l2 b l3). exact E. }
  destruct (Hch (length L)) as [c [Hl [Hi Hc]]].
  assert (Hdup : ~ NoDup c).
  { intros Hnd. assert (H := NoDup_incl_length Hnd Hi). lia. }
  assert (Hex : exists l1 x l2 l3, c = l1 ++ x :: l2 ++ x :: l3).
  { clear -Hdup. induction c as [|x c IH]; [exfalso; apply Hdup; constructor|].
    destruct (in_dec string_dec x c) as [Hx|Hx].
    - apply in_split in Hx as [l2 [l3 ->]]. exists [], x, l2, l3. reflexivity.
    - destruct IH as [l1 [y [l2 [l3 ->]]]].
      + intros Hnd. apply Hdup. constructor; assumption.
      + exists (x :: l1), y, l2, l3. reflexivity. }
  destruct Hex as [l1 [x [l2 [l3 E]]]]. exists x. split.
  - apply Hi. rewrite E. apply in_or_app. right; left; reflexivity.
  - eapply Hc; eauto.
Qed.

Lemma topological_index_lt g order l1 v l2 u :
  topological g order -> NoDup order -> order = l1 ++ v :: l2 -> reach1 g u v -> In u l1.
Proof.
  intros Ht Hnd E H. revert l1 l2 E. apply clos_trans_t1n in H.
  apply clos_t1n_trans in H. apply clos_trans_tn1 in H.
  induction H as [v He|w v He Hw IH]; intros l1 l2 E.
  - eapply Ht; eauto.
  - assert (Hin : In w l1) by (eapply Ht; eauto).
    apply in_split in Hin as [a [b ->]]. rewrite <- app_assoc in E. simpl in E.
    specialize (IH a (b ++ v :: l2) E). apply in_or_app. auto.
Qed.

(** If an order is produced, the live part is acyclic and complete. *)
Lemma resolve_ok_acyclic g s e order vis :
  wf_graph g -> (forall u, ~ edge g u s) ->
  resolve_connections g s e = Ok (order, vis) ->
  reach g s e /\ (forall v, live g s e v -> ~ reach1 g v v) /\
  (forall u v, edge g u v -> live g s e v -> reach g s u).
Proof.
  intros Hwf Hs H. destruct (resolve_sound _ _ _ _ _ Hwf Hs H) as [Hnd [Hlive [Hhd [Hlast [Ht _]]]]].
  split; [|split].
  - destruct Hhd as [mid ->]. assert (Hl : live g s e s) by (apply Hlive; left; reflexivity).
    exact (proj2 Hl).
  - intros v Hv Hc. apply Hlive in Hv. apply in_split in Hv as [l1 [l2 E]].
    assert (Hin : In v l1) by (eapply topological_index_lt; eauto).
    rewrite E in Hnd. apply NoDup_remove_2 in Hnd. apply Hnd. apply in_or_app; auto.
  - intros u v He Hv. apply Hlive in Hv. apply in_split in Hv as [l1 [l2 E]].
    assert (Hin : In u l1) by (eapply Ht; eauto).
    assert (Hu : live g s e u) by (apply Hlive; rewrite E; apply in_or_app; auto).
    exact (proj1 Hu).
Qed.

Lemma last_In {B} (l : list B) d : l <> [] -> In (last l d) l.
Proof.
  induction l as [|x l IH]; [congruence|]. intros _. destruct l as [|y l]; [left; reflexivity|].
  right. apply IH. discriminate.
Qed.

Lemma split_last {B} (l : list B) d : l <> [] -> l = removelast l ++ [last l d].
Proof. apply app_removelast_last. Qed.

Lemma resolve_complete g s e :
  wf_graph g -> (forall u, ~ edge g u s) ->
  reach g s e ->
  (forall v, live g s e v -> ~ reach1 g v v) ->
  (forall u v, edge g u v -> live g s e v -> reach g s u) ->
  exists order vis, resolve_connections g s e = Ok (order, vis).
Proof.
  intros Hwf Hs Hse Hacy Hdead.
  destruct (resolve_unfold g s e Hwf Hs) as [S [vis [order [d [HndS [HS [Hvis [Hk Eq]]]]]]]].
  destruct Hk as [J1 [J2 [J3 [J4 [J5 [J6 _]]]]]]. rewrite app_nil_r in *.
  assert (HsS : In s S) by (apply HS; split; [apply rt_refl|exact Hse]).
  assert (Hincl : incl order S).
  { intros v Hv. destruct (J3 v Hv) as [->|[H _]]; assumption. }
  (* every live node is processed *)
  assert (Hall : forall v, In v S -> In v order).
  { set (L := filter (fun v => negb (mem_str v order)) S).
    assert (HL : L = []).
    { destruct (list_eq_dec string_dec L []) as [E|Hne]; [exact E|exfalso].
      destruct (chain_cycle (edge g) L Hne) as [v [Hv Hc]].
      - intros v Hv. unfold L in Hv. apply filter_In in Hv as [HvS Hvo].
        apply negb_true_iff, mem_str_false in Hvo.
        assert (Hvs : v <> s).
        { intros ->. apply Hvo. destruct J6 as [t ->]. left; reflexivity. }
        assert (Hpos : (deg_get d v > 0)%Z).
        { destruct (Z_le_gt_dec (deg_get d v) 0) as [H|H]; [|lia]. exfalso. apply Hvo.
          apply J4; assumption. }
        rewrite (J1 v HvS) in Hpos.
        (* some predecessor is not processed *)
        assert (Hex : exists u, edge g u v /\ ~ In u order).
        { destruct (existsb (fun u => mem_str v (neighbors g u) && negb (mem_str u order)) (dkeys g)) eqn:Ex.
          - apply existsb_exists in Ex as [u [_ Hu]]. apply andb_true_iff in Hu as [H1 H2].
            exists u. split; [apply edge_neighbors, mem_str_In; exact H1|].
            apply negb_true_iff, mem_str_false in H2. exact H2.
          - exfalso. assert (Hle : sum_cnt g v <= sum_over (ec g v) order); [|lia].
            rewrite sum_cnt_over by exact Hwf. apply sum_over_incl; [exact Hwf|].
            intros u Hu Hc. destruct (in_dec string_dec u order) as [H|H]; [exact H|exfalso].
            assert (Hx : existsb (fun u => mem_str v (neighbors g u) && negb (mem_str u order)) (dkeys g) = true).
            { apply existsb_exists. exists u. split; [exact Hu|]. apply andb_true_iff. split.
              - apply mem_str_In, cnt_pos. exact Hc.
              - apply negb_true_iff, mem_str_false. exact H. }
            congruence. }
        destruct Hex as [u [He Hu]]. exists u. split; [|exact He].
        unfold L. apply filter_In. split; [|apply negb_true_iff, mem_str_false; exact Hu].
        apply HS. assert (Hvl : live g s e v) by (apply HS; exact HvS).
        split; [eapply Hdead; eauto|]. eapply rt_trans; [apply rt_step; exact He|exact (proj2 Hvl)].
      - unfold L in Hv. apply filter_In in Hv as [HvS _]. apply HS in HvS.
        exact (Hacy v HvS Hc). }
    intros v Hv. destruct (in_dec string_dec v order) as [H|H]; [exact H|exfalso].
    assert (Hin : In v L).
    { unfold L. apply filter_In. split; [exact Hv|]. apply negb_true_iff, mem_str_false. exact H. }
    rewrite HL in Hin. exact Hin. }
  assert (Hlen : length order = length S).
  { apply Nat.le_antisymm; [apply NoDup_incl_length; assumption|].
    apply NoDup_incl_length; assumption. }
  assert (Hlast : last order EmptyString = e).
  { destruct J6 as [t Et]. assert (Hne : order <> []) by (rewrite Et; discriminate).
    set (z := last order EmptyString). assert (Hz : In z S) by (apply Hincl, last_In, Hne).
    apply HS in Hz as [Hz1 Hz2]. destruct (string_dec z e) as [E|Hze]; [exact E|exfalso].
    (* z reaches e properly, so z occurs before e, contradicting that z is last *)
    assert (HeS : In e order) by (apply Hall, HS; split; [exact Hse|apply rt_refl]).
    assert (Hz1e : reach1 g z e).
    { clear -Hz2 Hze. apply clos_rt_rt1n in Hz2. destruct Hz2 as [|y e He Hr]; [congruence|].
      apply clos_rt1n_rt in Hr. eapply clos_t_clos_rt in He as _ || idtac.
      apply t_step in He. clear Hze. apply clos_rt_rtn1 in Hr.
      induction Hr as [|w v Hwv Hr IH]; [exact He|]. eapply t_trans; [exact IH|apply t_step; exact Hwv]. }
    apply in_split in HeS as [l1 [l2 E]].
    assert (Hzl1 : In z l1) by (eapply topological_index_lt; eauto).
    assert (Hl2 : l2 <> []).
    { intros ->. apply Hze. unfold z. rewrite E. apply last_last. }
    assert (Hzl2 : In z l2).
    { unfold z. rewrite E. replace (l1 ++ e :: l2) with ((l1 ++ [e]) ++ l2) by (rewrite <- app_assoc; reflexivity).
      clear -Hl2. induction (l1 ++ [e]) as [|x l IH]; simpl; [apply last_In; exact Hl2|].
      destruct (l ++ l2) eqn:El; [apply app_eq_nil in El as [_ El]; congruence|]. rewrite <- El in *. exact IH. }
    rewrite E in J2. clear -J2 Hzl1 Hzl2. apply in_split in Hzl1 as [a [b ->]].
    rewrite <- app_assoc in J2. simpl in J2. apply NoDup_remove_2 in J2. apply J2.
    apply in_or_app. right. apply in_or_app. right. right. exact Hzl2. }
  exists order, vis. rewrite Eq. unfold validate_resolution.
  rewrite Hlen, Nat.eqb_refl. cbn [negb].
  destruct J6 as [t Et]. rewrite Et at 1. simpl hd. rewrite String.eqb_refl. cbn [negb].
  rewrite Hlast, String.eqb_refl. reflexivity.
Qed.

Lemma resolve_only_runtime_error g s e :
  wf_graph g -> (forall u, ~ edge g u s) ->
  (exists r, resolve_connections g s e = Ok r) \/ resolve_connections g s e = Err RuntimeError.
Proof.
  intros Hwf Hs. destruct (resolve_unfold g s e Hwf Hs) as [S [vis [order [d [_ [_ [_ [_ Eq]]]]]]]].
  rewrite Eq. unfold validate_resolution.
  destruct (negb (length order =? length S)); [right; reflexivity|].
  destruct (negb (String.eqb (hd EmptyString order) s)); [right; reflexivity|].
  destruct (negb (String.eqb (last order EmptyString) e)); [right; reflexivity|].
  left; eexists; reflexivity.
Qed.

Lemma resolve_iff g s e :
  wf_graph g -> (forall u, ~ edge g u s) ->
  (exists order vis, resolve_connections g s e = Ok (order, vis)) <->
  reach g s e /\ (forall v, live g s e v -> ~ reach1 g v v) /\
  (forall u v, edge g u v -> live g s e v -> reach g s u).
Proof.
  intros Hwf Hs. split.
  - intros [order [vis H]]. eapply resolve_ok_acyclic; eauto.
  - intros [H1 [H2 H3]]. apply resolve_complete; assumption.
Qed.

(** a decreasing rank certifies acyclicity (used for concrete graphs) *)
Lemma rank_acyclic g (rank : string -> nat) :
  (forall u v, edge g u v -> rank u < rank v) -> forall v, ~ reach1 g v v.
Proof.
  intros H v Hc.
  assert (Hlt : forall a b, reach1 g a b -> rank a < rank b).
  { intros a b Hab. induction Hab as [a b Hab|a b c _ IH1 _ IH2]; [apply H; exact Hab|lia]. }
  specialize (Hlt v v Hc). lia.
Qed.
