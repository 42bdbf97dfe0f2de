(** The order of the paths does not matter when extend_structure_from_strpaths
    builds a new structure from paths that do not get in each other's way
    (C57). *)
From Coq Require Import Permutation.
From Verif Require Import Base BaseLemmas TreeUtil TreeSpec TreeProofs ExtendProofs NonSeqSpec NonSeqProofs NonSeqRun ConcretizeSpec ConnSpec CompileSpec ExtendOk.
Local Open Scope list_scope.

Section Order.
Context {A : Type}.
Variable eqA : A -> A -> bool.
Variable sep : ascii.

(** Equality up to the order of dictionary entries. *)
Inductive teq : tree A -> tree A -> Prop :=
| te_leaf a : teq (Leaf a) (Leaf a)
| te_none : teq NoneT NoneT
| te_dict d e : (forall k c, dget d k = Some c -> exists c', dget e k = Some c' /\ teq c c') ->
    (forall k, dget d k = None -> dget e k = None) -> teq (Dict d) (Dict e)
| te_lst l m : (forall i c, nth_error l i = Some c -> exists c', nth_error m i = Some c' /\ teq c c') ->
    (forall i, nth_error l i = None -> nth_error m i = None) -> teq (Lst l) (Lst m)
| te_tup l m : (forall i c, nth_error l i = Some c -> exists c', nth_error m i = Some c' /\ teq c c') ->
    (forall i, nth_error l i = None -> nth_error m i = None) -> teq (Tup l) (Tup m).

Lemma teq_refl t : teq t t.
Proof.
  induction t as [x| |d IH|l IH|l IH] using tree_ind2; constructor; auto.
  - intros k c Hc. exists c. split; [exact Hc|]. apply dget_In in Hc. rewrite Forall_forall in IH. exact (IH _ Hc).
  - intros i c Hc. exists c. split; [exact Hc|]. rewrite Forall_forall in IH. exact (IH _ (nth_error_In _ _ Hc)).
  - intros i c Hc. exists c. split; [exact Hc|]. rewrite Forall_forall in IH. exact (IH _ (nth_error_In _ _ Hc)).
Qed.

Lemma teq_trans t : forall u v, teq t u -> teq u v -> teq t v.
Proof.
  induction t as [x| |d IH|l IH|l IH] using tree_ind2; intros u v H1 H2.
  - inversion H1; subst. exact H2.
  - inversion H1; subst. exact H2.
  - inversion H1 as [| |d0 e P1 P2| |]; subst. inversion H2 as [| |d0 e0 Q1 Q2| |]; subst. constructor; [|auto].
    intros k c Hc. destruct (P1 k c Hc) as [c1 [E1 T1]]. destruct (Q1 k c1 E1) as [c2 [E2 T2]].
    exists c2. split; [exact E2|]. apply dget_In in Hc. rewrite Forall_forall in IH. exact (IH _ Hc _ _ T1 T2).
  - inversion H1 as [| | |l0 m P1 P2|]; subst. inversion H2 as [| | |l0 m0 Q1 Q2|]; subst. constructor; [|auto].
    intros k c Hc. destruct (P1 k c Hc) as [c1 [E1 T1]]. destruct (Q1 k c1 E1) as [c2 [E2 T2]].
    exists c2. split; [exact E2|]. rewrite Forall_forall in IH. exact (IH _ (nth_error_In _ _ Hc) _ _ T1 T2).
  - inversion H1 as [| | | |l0 m P1 P2]; subst. inversion H2 as [| | | |l0 m0 Q1 Q2]; subst. constructor; [|auto].
    intros k c Hc. destruct (P1 k c Hc) as [c1 [E1 T1]]. destruct (Q1 k c1 E1) as [c2 [E2 T2]].
    exists c2. split; [exact E2|]. rewrite Forall_forall in IH. exact (IH _ (nth_error_In _ _ Hc) _ _ T1 T2).
Qed.

Definition orelse (c : tree A) (nk : string) : tree A := match c with NoneT => new_node nk | _ => c end.

(** Writing one path where there is room. *)
Fixpoint put (t : tree A) (ps : list string) (f : tree A) : tree A :=
  match ps with
  | [] => f
  | k :: ps' =>
      match t with
      | Dict d => Dict (dset d k (match ps' with
                                  | [] => f
                                  | k2 :: _ => put (match dget d k with None => new_node k2 | Some c => c end) ps' f
                                  end))
      | Lst l => Lst (upd (pad l (int_of k)) (int_of k)
                   (match ps' with
                    | [] => f
                    | k2 :: _ => put (orelse (nth (int_of k) l NoneT) k2) ps' f
                    end))
      | _ => t
      end
  end.

Lemma put_dict d k ps f : put (Dict d) (k :: ps) f = Dict (dset d k (match ps with
                                  | [] => f
                                  | k2 :: _ => put (match dget d k with None => new_node k2 | Some c => c end) ps f
                                  end)).
Proof. destruct ps; reflexivity. Qed.
Lemma put_lst l k ps f : put (Lst l) (k :: ps) f = Lst (upd (pad l (int_of k)) (int_of k)
                   (match ps with
                    | [] => f
                    | k2 :: _ => put (orelse (nth (int_of k) l NoneT) k2) ps f
                    end)).
Proof. destruct ps; reflexivity. Qed.

Lemma extend_walk_put ps : forall (t : tree A) done fill, room t ps ->
  extend_walk eqA sep t done ps fill = Ok (put t ps fill, []).
Proof.
  induction ps as [|k ps IH]; intros t done fill H; [destruct H|]. cbn [extend_walk].
  destruct t as [a| |d|l|l]; try (simpl in H; destruct ps; contradiction); unfold extend_node.
  - rewrite put_dict. destruct ps as [|k2 ps].
    + simpl in H. rewrite H. reflexivity.
    + rewrite room_dict in H. destruct (dget d k) as [c|] eqn:E.
      * rewrite (IH c (done ++ [k]) fill H). reflexivity.
      * rewrite (IH (new_node k2) (done ++ [k]) fill (room_new k2 ps k2 (fun h => h))). reflexivity.
  - rewrite put_lst. destruct ps as [|k2 ps].
    + simpl in H. destruct H as [ -> H]. rewrite nth_pad, H. reflexivity.
    + destruct H as [ -> H]. rewrite nth_pad. destruct (nth (int_of k) l NoneT) as [a| |d|l1|l1] eqn:E.
      2: { rewrite (IH (new_node k2) (done ++ [k]) fill (room_new k2 ps k2 (fun h => h))). reflexivity. }
      all: match type of H with room ?c _ => rewrite (IH c (done ++ [k]) fill H) end; reflexivity.
Qed.

Lemma nth_error_put (l : list (tree A)) i j x :
  nth_error (upd (pad l i) i x) j =
  if j =? i then Some x
  else match nth_error l j with Some y => Some y | None => if j <? i then Some NoneT else None end.
Proof.
  destruct (Nat.eqb_spec j i) as [->|Hne].
  - apply nth_upd_same. apply pad_length.
  - rewrite BaseLemmas.nth_upd_other by congruence. rewrite nth_error_pad.
    destruct (nth_error l j) as [y|] eqn:E; [reflexivity|]. apply nth_error_None in E.
    unfold pad. rewrite app_length, repeat_length.
    destruct (Nat.ltb_spec j (length l + (S i - length l))); destruct (Nat.ltb_spec j i); try reflexivity; lia.
Qed.

(** the child seen by the next path *)
Lemma nth_put_same (l : list (tree A)) i x : nth i (upd (pad l i) i x) NoneT = x.
Proof. apply nth_error_nth with (d := NoneT). rewrite nth_error_put, Nat.eqb_refl. reflexivity. Qed.
Lemma nth_put_other (l : list (tree A)) i j x : i <> j -> nth j (upd (pad l i) i x) NoneT = nth j l NoneT.
Proof. intros H. rewrite nth_upd_other, nth_pad by exact H. reflexivity. Qed.

Lemma put_not_none (t : tree A) ps f : room t ps -> put t ps f <> NoneT.
Proof.
  destruct ps as [|k ps]; [intros []|]. destruct t as [a| |d|l|l]; try (simpl; destruct ps; contradiction); intros _.
  - rewrite put_dict. discriminate.
  - rewrite put_lst. discriminate.
Qed.

Lemma orelse_put (c : tree A) nk : c <> NoneT -> orelse c nk = c.
Proof. destruct c; simpl; congruence. Qed.

Lemma dict_teq d e : (forall k, exists o o', dget d k = o /\ dget e k = o' /\
    match o, o' with Some c, Some c' => teq c c' | None, None => True | _, _ => False end) -> teq (Dict d) (Dict e).
Proof.
  intros H. constructor.
  - intros k c Hc. destruct (H k) as [o [o' [E [E' X]]]]. rewrite Hc in E. subst o.
    destruct o' as [c'|]; [|destruct X]. eauto.
  - intros k Hc. destruct (H k) as [o [o' [E [E' X]]]]. rewrite Hc in E. subst o. destruct o'; [destruct X|exact E'].
Qed.
Lemma lst_teq l m : (forall k, exists o o', nth_error l k = o /\ nth_error m k = o' /\
    match o, o' with Some c, Some c' => teq c c' | None, None => True | _, _ => False end) -> teq (Lst l) (Lst m).
Proof.
  intros H. constructor.
  - intros k c Hc. destruct (H k) as [o [o' [E [E' X]]]]. rewrite Hc in E. subst o.
    destruct o' as [c'|]; [|destruct X]. eauto.
  - intros k Hc. destruct (H k) as [o [o' [E [E' X]]]]. rewrite Hc in E. subst o. destruct o'; [destruct X|exact E'].
Qed.
Lemma put_comm p : forall (t : tree A) q f g, room t p -> room t q -> after p q -> after q p ->
  teq (put (put t p f) q g) (put (put t q g) p f).
Proof.
  induction p as [|a p IH]; intros t q f g Hp Hq H1 H2; [destruct Hp|].
  destruct q as [|b q]; [destruct Hq|].
  destruct t as [x| |d|l|l]; try (simpl in Hp; destruct p; contradiction).
  - rewrite !put_dict. destruct H1 as [[Hne _]|[E H1]].
    + rewrite !dget_dset_other by congruence. apply dict_teq. intros k. do 2 eexists. do 2 (split; [reflexivity|]).
      destruct (String.eqb_spec b k) as [<-|Nb].
      * rewrite dget_dset_same, dget_dset_other, dget_dset_same by congruence. apply teq_refl.
      * rewrite (dget_dset_other _ b) by congruence.
        destruct (String.eqb_spec a k) as [<-|Na].
        -- rewrite !dget_dset_same. apply teq_refl.
        -- rewrite !dget_dset_other by congruence. destruct (dget d k); [apply teq_refl|exact I].
    + subst b. destruct p as [|a2 p]; [destruct H1|]. destruct q as [|b2 q]; [destruct H1|]. destruct H1 as [D1 H1].
      destruct H2 as [[N _]|[_ [D2 H2]]]; [congruence|].
      assert (En : @new_node A a2 = new_node b2).
      { unfold new_node. destruct (isdigit a2), (isdigit b2); auto; [discriminate D1|discriminate D2]; reflexivity. }
      rewrite !dget_dset_same. rewrite room_dict in *.
      apply dict_teq. intros k. do 2 eexists. do 2 (split; [reflexivity|]).
      destruct (String.eqb_spec a k) as [<-|Na].
      * rewrite !dget_dset_same. destruct (dget d a) as [c|].
        -- apply IH; assumption.
        -- rewrite <- En. apply IH; [apply (room_new a2 p a2 (fun h => h))|apply (room_new a2 q b2 D1)|exact H1|exact H2].
      * rewrite !dget_dset_other by congruence. destruct (dget d k); [apply teq_refl|exact I].
  - assert (Da : isdigit a = true) by (destruct p; apply Hp). assert (Db : isdigit b = true) by (destruct q; apply Hq).
    rewrite !put_lst. destruct H1 as [[_ Hne]|[E H1]].
    + specialize (Hne Da Db). rewrite !nth_put_other by congruence.
      apply lst_teq. intros k. do 2 eexists. do 2 (split; [reflexivity|]). rewrite !nth_error_put.
      destruct (Nat.eqb_spec k (int_of b)) as [->|Nb].
      * destruct (Nat.eqb_spec (int_of b) (int_of a)); [congruence|]. apply teq_refl.
      * destruct (Nat.eqb_spec k (int_of a)) as [->|Na]; [apply teq_refl|].
        destruct (nth_error l k); [apply teq_refl|].
        destruct (k <? int_of a), (k <? int_of b); try apply teq_refl; exact I.
    + subst b. destruct p as [|a2 p]; [destruct H1|]. destruct q as [|b2 q]; [destruct H1|]. destruct H1 as [D1 H1].
      destruct H2 as [[N _]|[_ [D2 H2]]]; [congruence|].
      assert (En : @new_node A a2 = new_node b2).
      { unfold new_node. destruct (isdigit a2), (isdigit b2); auto; [discriminate D1|discriminate D2]; reflexivity. }
      rewrite !nth_put_same. rewrite room_lst in *. destruct Hp as [_ Hp]. destruct Hq as [_ Hq].
      apply lst_teq. intros k. do 2 eexists. do 2 (split; [reflexivity|]). rewrite !nth_error_put.
      destruct (Nat.eqb_spec k (int_of a)) as [->|Na].
      * set (c0 := nth (int_of a) l NoneT) in *.
        set (c1 := orelse c0 a2).
        assert (E1 : orelse c0 b2 = c1) by (subst c1; unfold orelse; rewrite En; reflexivity).
        rewrite E1.
        assert (R1 : room c1 (a2 :: p)).
        { subst c1. destruct c0; try exact Hp. apply (room_new a2 p a2 (fun h => h)). }
        assert (R2 : room c1 (b2 :: q)).
        { subst c1. destruct c0; try exact Hq. apply (room_new a2 q b2 D1). }
        rewrite (orelse_put _ _ (put_not_none c1 (a2 :: p) f R1)).
        rewrite (orelse_put _ _ (put_not_none c1 (b2 :: q) g R2)).
        apply IH; assumption.
      * destruct (nth_error l k); [apply teq_refl|].
        destruct (k <? int_of a); try apply teq_refl; exact I.
Qed.

Lemma teq_nth l m i : teq (Lst l) (Lst m) -> teq (nth i l NoneT) (nth i m NoneT).
Proof.
  intros H; inversion H as [| | |l0 m0 P1 P2|]; subst. destruct (nth_error l i) as [c|] eqn:E.
  - destruct (P1 _ _ E) as [c' [E' T]]. rewrite (nth_error_nth _ _ NoneT E), (nth_error_nth _ _ NoneT E'). exact T.
  - assert (E' := P2 _ E). apply nth_error_None in E. apply nth_error_None in E'.
    rewrite !nth_overflow by assumption. constructor.
Qed.

Lemma teq_new_node_match c c' nk : teq c c' ->
  teq (orelse c nk) (orelse c' nk).
Proof. intros H; inversion H; subst; try exact H. apply teq_refl. Qed.

Lemma put_teq ps f : forall t u, teq t u -> teq (put t ps f) (put u ps f).
Proof.
  induction ps as [|k ps IH]; intros t u H; [apply teq_refl|].
  destruct t as [a| |d|l|l]; inversion H as [| |d0 e P1 P2|l0 m P1 P2|l0 m P1 P2]; subst; try exact H.
  - rewrite !put_dict. apply dict_teq. intros j. do 2 eexists. do 2 (split; [reflexivity|]).
    destruct (String.eqb_spec k j) as [<-|Hne].
    + rewrite !dget_dset_same. destruct ps as [|k2 ps]; [apply teq_refl|]. apply IH.
      destruct (dget d k) as [c|] eqn:E.
      * destruct (P1 _ _ E) as [c' [-> T]]. exact T.
      * rewrite (P2 _ E). apply teq_refl.
    + rewrite !dget_dset_other by exact Hne. destruct (dget d j) as [c|] eqn:E.
      * destruct (P1 _ _ E) as [c' [-> T]]. exact T.
      * rewrite (P2 _ E). exact I.
  - rewrite !put_lst. apply lst_teq. intros j. do 2 eexists. do 2 (split; [reflexivity|]). rewrite !nth_error_put.
    destruct (j =? int_of k).
    + destruct ps as [|k2 ps]; [apply teq_refl|]. apply IH. apply teq_new_node_match, teq_nth. exact H.
    + destruct (nth_error l j) as [c|] eqn:E.
      * destruct (P1 _ _ E) as [c' [-> T]]. exact T.
      * rewrite (P2 _ E). destruct (j <? int_of k); [apply teq_refl|exact I].
Qed.

Definition puts (pfs : list (list string * tree A)) (t : tree A) : tree A :=
  fold_left (fun t pf => put t (fst pf) (snd pf)) pfs t.

Lemma puts_teq pfs : forall t u, teq t u -> teq (puts pfs t) (puts pfs u).
Proof. induction pfs as [|[p f] pfs IH]; intros t u H; [exact H|]. apply IH, put_teq, H. Qed.

Definition compatible (pfs : list (list string * tree A)) : Prop :=
  ForallOrdPairs (fun pf qf => after (fst pf) (fst qf) /\ after (fst qf) (fst pf)) pfs.

Lemma ordpairs_perm {X} (R : X -> X -> Prop) l m : (forall x y, R x y -> R y x) -> Permutation l m ->
  ForallOrdPairs R l -> ForallOrdPairs R m.
Proof.
  intros Hs H. induction H as [|x l m H IH|x y l|l m n H1 IH1 H2 IH2]; intros F; auto.
  - inversion F; subst. constructor; [|auto]. eapply Permutation_Forall; eauto.
  - inversion F as [|? ? F1 F2]; subst. inversion F2 as [|? ? F3 F4]; subst. inversion F1; subst.
    constructor; [constructor; auto|constructor; auto].
Qed.

Lemma room_put (t : tree A) p f q : room t p -> room t q -> after p q -> room (put t p f) q.
Proof. intros Hp Hq Ha. eapply (extend_walk_room eqA sep p t [] f); eauto. apply extend_walk_put. exact Hp. Qed.

Lemma puts_perm l m : Permutation l m -> forall t, Forall (fun pf => room t (fst pf)) l -> compatible l ->
  teq (puts l t) (puts m t).
Proof.
  intros H. induction H as [|[p f] l m H IH|[p f] [q g] l|l m n H1 IH1 H2 IH2]; intros t Hr Hc.
  - apply teq_refl.
  - cbn [puts fold_left]. apply IH.
    + apply Forall_cons_iff in Hr as [Hp Hr]. inversion Hc as [|? ? Ha _]; subst. cbn [fst snd] in *.
      rewrite Forall_forall in *. intros x Hx. apply room_put; auto. apply (Ha x Hx).
    + inversion Hc; assumption.
  - cbn [puts fold_left fst snd]. apply puts_teq. apply Forall_cons_iff in Hr as [Hp Hr].
    apply Forall_cons_iff in Hr as [Hq Hr]. inversion Hc as [|? ? Ha _]; subst. inversion Ha as [|? ? [H1 H2] _]; subst.
    cbn [fst snd] in *. apply put_comm; assumption.
  - eapply teq_trans; [apply IH1; assumption|]. apply IH2.
    + eapply Permutation_Forall; eauto.
    + eapply ordpairs_perm; [|exact H1|exact Hc]. tauto.
Qed.

Lemma extend_fold_puts pfs : forall (t : tree A) recs,
  Forall (fun pf => room t (split sep (fst pf))) pfs ->
  compatible (map (fun pf => (split sep (fst pf), snd pf)) pfs) ->
  rfold (fun '(t, recs) '(p, fill) =>
           let* (t', r) := extend_walk eqA sep t [] (split sep p) fill in Ok (t', recs ++ r))
        pfs (t, recs) = Ok (puts (map (fun pf => (split sep (fst pf), snd pf)) pfs) t, recs).
Proof.
  induction pfs as [|[p f] pfs IH]; intros t recs Hr Ho; [reflexivity|].
  apply Forall_cons_iff in Hr as [Hr Hrs]. inversion Ho as [|? ? Hpq Ho']; subst. cbn [fst snd map] in *.
  cbn [rfold]. rewrite (extend_walk_put _ t [] f Hr). cbn [rbind]. rewrite app_nil_r.
  rewrite IH; [reflexivity| |exact Ho']. rewrite Forall_forall in *. intros [q g] Hq.
  apply room_put; [exact Hr|exact (Hrs _ Hq)|].
  apply (Hpq (split sep q, g)). apply in_map_iff. exists (q, g). auto.
Qed.

(** Dictionaries keep unique keys. *)
Lemma wf_dset d k (c : tree A) : wf_tree (Dict d) -> wf_tree c -> wf_tree (Dict (dset d k c)).
Proof.
  intros H Hc. inversion H as [| |d0 N F| |]; subst. constructor.
  - clear -N. unfold dkeys in *. induction d as [|[k0 c0] d IH]; cbn [dset map fst] in *.
    + constructor; [intros []|constructor].
    + destruct (String.eqb_spec k k0) as [->|Hne]; [exact N|]. cbn [map fst].
      inversion N as [|? ? N1 N2]; subst. constructor; [|apply IH; exact N2].
      intros X. apply N1. clear -X Hne. induction d as [|[k1 c1] d IH]; cbn [dset map fst] in *.
      * destruct X as [X|[]]. congruence.
      * destruct (String.eqb_spec k k1) as [->|Hn1]; cbn [map fst] in *; [exact X|].
        destruct X as [X|X]; [left; exact X|right; apply IH; exact X].
  - clear -F Hc. induction d as [|[k0 c0] d IH]; cbn [dset].
    + constructor; [exact Hc|constructor].
    + inversion F; subst. destruct (String.eqb_spec k k0); constructor; auto.
Qed.

Lemma wf_upd (l : list (tree A)) i c : Forall wf_tree l -> wf_tree c -> Forall wf_tree (upd l i c).
Proof. intros H Hc. revert i. induction H as [|x l Hx Hl IH]; intros [|i]; simpl; constructor; auto. Qed.
Lemma wf_pad (l : list (tree A)) i : Forall wf_tree l -> Forall wf_tree (pad l i).
Proof.
  intros H. unfold pad. apply Forall_app. split; [exact H|]. apply Forall_forall. intros x Hx.
  apply repeat_spec in Hx. subst. constructor.
Qed.
Lemma wf_new nk : wf_tree (@new_node A nk).
Proof. unfold new_node. destruct (isdigit nk); constructor; simpl; constructor. Qed.

Lemma put_wf ps f : wf_tree f -> forall t, wf_tree t -> wf_tree (put t ps f).
Proof.
  intros Hf. induction ps as [|k ps IH]; intros t Ht; [exact Hf|].
  destruct t as [a| |d|l|l]; try exact Ht.
  - rewrite put_dict. apply wf_dset; [exact Ht|]. destruct ps as [|k2 ps]; [exact Hf|]. apply IH.
    destruct (dget d k) as [c|] eqn:E; [|apply wf_new]. inversion Ht as [| |d0 N F| |]; subst.
    rewrite Forall_forall in F. apply dget_In in E. exact (F _ E).
  - rewrite put_lst. inversion Ht as [| | |l0 F|]; subst. constructor. apply wf_upd; [apply wf_pad; exact F|].
    destruct ps as [|k2 ps]; [exact Hf|]. apply IH.
    assert (Hw : wf_tree (nth (int_of k) l NoneT)).
    { destruct (nth_in_or_default (int_of k) l NoneT) as [X| ->]; [|constructor].
      rewrite Forall_forall in F. exact (F _ X). }
    destruct (nth (int_of k) l NoneT); try exact Hw. apply wf_new.
Qed.
Lemma puts_wf pfs : forall t, Forall (fun pf => wf_tree (snd pf)) pfs -> wf_tree t -> wf_tree (puts pfs t).
Proof.
  induction pfs as [|[p f] pfs IH]; intros t F Ht; [exact Ht|]. apply Forall_cons_iff in F as [Hf F].
  apply IH; [exact F|]. apply put_wf; assumption.
Qed.

Fixpoint all2 (l m : list (tree A)) : bool :=
  match l, m with
  | [], [] => true
  | x :: l', y :: m' => tree_eqb eqA x y && all2 l' m'
  | _, _ => false
  end.
Definition alld (e : list (string * tree A)) : list (string * tree A) -> bool :=
  fix alld l := match l with
  | [] => true
  | (k, x) :: l' => match dget e k with Some y => tree_eqb eqA x y | None => false end && alld l'
  end.
Lemma tree_eqb_lst l m : tree_eqb eqA (Lst l) (Lst m) = all2 l m.
Proof. reflexivity. Qed.
Lemma tree_eqb_tup l m : tree_eqb eqA (Tup l) (Tup m) = all2 l m.
Proof. reflexivity. Qed.
Lemma tree_eqb_dct d e : tree_eqb eqA (Dict d) (Dict e) = (length d =? length e) && alld e d.
Proof. reflexivity. Qed.

(** Python's [==] agrees. *)
Lemma teq_eqb (refl : forall a, eqA a a = true) t : forall u, wf_tree t -> wf_tree u -> teq t u -> tree_eqb eqA t u = true.
Proof.
  assert (Hl : forall l m, Forall (fun t => forall u, wf_tree t -> wf_tree u -> teq t u -> tree_eqb eqA t u = true) l ->
            Forall wf_tree l -> Forall wf_tree m ->
            (forall i c, nth_error l i = Some c -> exists c', nth_error m i = Some c' /\ teq c c') ->
            (forall i, nth_error l i = None -> nth_error m i = None) -> all2 l m = true).
  { intros l m IH. revert m. induction IH as [|x l Hx _ IHl]; intros m W1 W2 P1 P2.
    - destruct m as [|y m]; [reflexivity|]. specialize (P2 0 eq_refl). discriminate.
    - destruct m as [|y m]; [destruct (P1 0 x eq_refl) as [c' [X _]]; discriminate|].
      apply Forall_cons_iff in W1 as [W1 W1']. apply Forall_cons_iff in W2 as [W2 W2']. cbn [all2].
      destruct (P1 0 x eq_refl) as [c' [X T]]. injection X as <-. rewrite Hx by assumption. cbn [andb].
      apply IHl; auto; [intros i c Hc; exact (P1 (S i) c Hc)|intros i Hc; exact (P2 (S i) Hc)]. }
  induction t as [x| |d IH|l IH|l IH] using tree_ind2; intros u Wt Wu H.
  - inversion H; subst. simpl. apply refl.
  - inversion H; subst. reflexivity.
  - inversion H as [| |d0 e P1 P2| |]; subst. rewrite tree_eqb_dct. apply andb_true_intro.
    inversion Wt as [| |d0 N1 F1| |]; subst. inversion Wu as [| |d0 N2 F2| |]; subst. split.
    + apply Nat.eqb_eq. assert (L : length (dkeys d) = length (dkeys e)).
      { apply Nat.le_antisymm; apply NoDup_incl_length; try assumption; intros k Hk.
        - destruct (dget d k) as [c|] eqn:E; [|apply dget_None_iff in E; contradiction].
          destruct (P1 _ _ E) as [c' [E' _]]. eapply dget_Some_in_keys; eauto.
        - destruct (dget d k) as [c|] eqn:E; [eapply dget_Some_in_keys; eauto|].
          apply P2, dget_None_iff in E. contradiction. }
      unfold dkeys in L. rewrite !map_length in L. exact L.
    + assert (G : forall k c, In (k, c) d -> exists c', dget e k = Some c' /\ teq c c')
        by (intros k c Hc; apply P1, In_dget; assumption).
      clear N1 H P1 P2 Wt. induction IH as [|[k c] d Hx _ IHd]; [reflexivity|]. cbn [alld].
      apply Forall_cons_iff in F1 as [W1 F1].
      destruct (G k c (or_introl eq_refl)) as [c' [E T]]. rewrite E.
      assert (W2 : wf_tree c') by (rewrite Forall_forall in F2; apply dget_In in E; exact (F2 _ E)).
      cbn [snd] in *. rewrite (Hx c' W1 W2 T). cbn [andb]. apply IHd; [exact F1|].
      intros k0 c0 Hc0. apply G. right. exact Hc0.
  - inversion H as [| | |l0 m P1 P2|]; subst. rewrite tree_eqb_lst. inversion Wt; subst. inversion Wu; subst. eapply Hl; eauto.
  - inversion H as [| | | |l0 m P1 P2]; subst. rewrite tree_eqb_tup. inversion Wt; subst. inversion Wu; subst. eapply Hl; eauto.
Qed.

(** The start node does not depend on the order. *)
Lemma forallb_perm {X} (f : X -> bool) l m : Permutation l m -> forallb f l = forallb f m.
Proof.
  intros H. induction H as [|x l m H IH|x y l|l m n H1 IH1 H2 IH2]; simpl; auto; [congruence| |congruence].
  rewrite !andb_assoc, (andb_comm (f y)). reflexivity.
Qed.
Lemma filter_perm {X} (f : X -> bool) l m : Permutation l m -> Permutation (filter f l) (filter f m).
Proof.
  intros H. induction H as [|x l m H IH|x y l|l m n H1 IH1 H2 IH2]; simpl; auto.
  - destruct (f x); auto.
  - destruct (f x), (f y); auto. apply perm_swap.
  - eapply Permutation_trans; eauto.
Qed.

(** What is asked of the paths. *)
Definition apart (pfs : list (string * tree A)) : Prop :=
  Forall (fun pf => fst pf <> EmptyString) pfs /\
  Forall (fun pf => standard (split sep (fst pf))) pfs /\
  uniform (map (fun pf => split sep (fst pf)) pfs) /\
  ForallOrdPairs (fun pf qf => ~ prefix (split sep (fst pf)) (split sep (fst qf)) /\
                               ~ prefix (split sep (fst qf)) (split sep (fst pf))) pfs.

Lemma apart_perm pfs qgs : Permutation pfs qgs -> apart pfs -> apart qgs.
Proof.
  intros H [A1 [A2 [A3 A4]]]. split; [|split; [|split]].
  - eapply Permutation_Forall; eauto.
  - eapply Permutation_Forall; eauto.
  - intros c a b r s0 H1 H2. apply A3 with (c := c) (r := r) (s := s0).
    + eapply Permutation_in; [|exact H1]. apply Permutation_map, Permutation_sym, H.
    + eapply Permutation_in; [|exact H2]. apply Permutation_map, Permutation_sym, H.
  - eapply ordpairs_perm; [|exact H|exact A4]. tauto.
Qed.

Definition root (paths : list string) : tree A :=
  if forallb isdigit (map (fun p => fst (split1 sep p)) (filter (fun p => negb (String.eqb p EmptyString)) paths))
  then Lst [] else Dict [].

Lemma extend_puts pfs : apart pfs ->
  extend_structure eqA sep None (map fst pfs) (FillList (map snd pfs)) =
  Ok (puts (map (fun pf => (split sep (fst pf), snd pf)) pfs) (root (map fst pfs))) /\
  Forall (fun pf => room (root (map fst pfs)) (split sep (fst pf))) pfs /\
  compatible (map (fun pf => (split sep (fst pf), snd pf)) pfs).
Proof.
  intros [Hne [Hs [HU Hpf]]].
  assert (Hroom : Forall (fun pf => room (root (map fst pfs)) (split sep (fst pf))) pfs).
  { rewrite Forall_forall in *. intros [p f] Hi. assert (Hp := Hne _ Hi). cbn [fst] in *.
    destruct (split sep p) as [|k ks] eqn:E; [exfalso; eapply split_nonempty; exact E|].
    unfold root. destruct (forallb isdigit _) eqn:Ef.
    + assert (Hk : isdigit k = true).
      { rewrite forallb_forall in Ef. apply Ef. apply in_map_iff. exists p. split.
        - rewrite split1_spec, E. destruct ks; reflexivity.
        - apply filter_In. split; [apply in_map_iff; exists (p, f); auto|].
          destruct (String.eqb_spec p EmptyString); [contradiction|reflexivity]. }
      destruct ks; cbn [room]; (split; [exact Hk|]); destruct (int_of k); try reflexivity; exact I.
    + destruct ks; cbn [room dget]; [reflexivity|exact I]. }
  assert (Hcomp : compatible (map (fun pf => (split sep (fst pf), snd pf)) pfs)).
  { unfold compatible.
    assert (HU' : forall pf, In pf pfs -> In ([] ++ split sep (fst pf)) (map (fun pf => split sep (fst pf)) pfs)).
    { intros pf Hi. apply in_map_iff. exists pf. auto. }
    clear Hroom Hne. revert Hpf HU'. revert HU. generalize (map (fun pf : string * tree A => split sep (fst pf)) pfs) as P.
    intros P HP Hpf HU'. induction Hpf as [|[p f] l Hx _ IH]; cbn [map]; constructor.
    - apply Forall_forall. intros x Hxx. apply in_map_iff in Hxx as [[q g] [<- Hq]]. cbn [fst snd].
      rewrite Forall_forall in Hx, Hs. destruct (Hx _ Hq) as [N1 N2]. cbn [fst] in *.
      assert (Sp := Hs (p, f) (or_introl eq_refl)). assert (Sq := Hs (q, g) (or_intror Hq)). cbn [fst] in *.
      assert (Pp := HU' (p, f) (or_introl eq_refl)). assert (Pq := HU' (q, g) (or_intror Hq)). cbn [fst] in *.
      split; eapply (after_uniform P HP []); eassumption.
    - apply IH.
      + apply Forall_cons_iff in Hs as [_ Hs]. exact Hs.
      + intros pf Hi. apply HU'. right. exact Hi. }
  split; [|split; assumption].
  unfold extend_structure. rewrite !map_length, Nat.eqb_refl. cbn [negb].
  fold (root (map fst pfs)).
  assert (Hbt : (match root (map fst pfs) with Tup l => (Lst l, true) | _ => (root (map fst pfs), false) end) = (root (map fst pfs), false)).
  { unfold root; destruct (forallb _ _); reflexivity. }
  rewrite Hbt. clear Hbt.
  assert (Hcb : combine (map fst pfs) (map snd pfs) = pfs).
  { clear. induction pfs as [|[p f] l IH]; [reflexivity|]. cbn [map combine fst snd]. rewrite IH. reflexivity. }
  rewrite Hcb. rewrite (extend_fold_puts pfs _ []) by assumption. reflexivity.
Qed.

Theorem extend_order (refl : forall a, eqA a a = true) (pfs qgs : list (string * tree A)) :
  apart pfs -> Forall (fun pf => wf_tree (snd pf)) pfs -> Permutation pfs qgs ->
  exists t u,
    extend_structure eqA sep None (map fst pfs) (FillList (map snd pfs)) = Ok t /\
    extend_structure eqA sep None (map fst qgs) (FillList (map snd qgs)) = Ok u /\
    tree_eqb eqA t u = true.
Proof.
  intros Ha Hw HP. assert (Hb := apart_perm _ _ HP Ha).
  destruct (extend_puts pfs Ha) as [E1 [R1 C1]]. destruct (extend_puts qgs Hb) as [E2 [R2 C2]].
  do 2 eexists. split; [exact E1|]. split; [exact E2|].
  assert (Er : root (map fst qgs) = root (map fst pfs)).
  { unfold root. rewrite (forallb_perm isdigit _ (map (fun p => fst (split1 sep p))
       (filter (fun p => negb (String.eqb p EmptyString)) (map fst pfs)))); [reflexivity|].
    apply Permutation_map, filter_perm, Permutation_map, Permutation_sym, HP. }
  rewrite Er.
  assert (Wr : wf_tree (root (map fst pfs))) by (unfold root; destruct (forallb _ _); constructor; simpl; constructor).
  assert (W' : forall l, Forall (fun pf : string * tree A => wf_tree (snd pf)) l ->
            Forall (fun pf => wf_tree (snd pf)) (map (fun pf => (split sep (fst pf), snd pf)) l)).
  { intros l F. rewrite Forall_forall in *. intros x Hx. apply in_map_iff in Hx as [pf [<- Hx]]. exact (F _ Hx). }
  apply teq_eqb; [exact refl| | |].
  - apply puts_wf; auto.
  - apply puts_wf; [|exact Wr]. apply W'. eapply Permutation_Forall; eauto.
  - apply puts_perm; [apply Permutation_map; exact HP| |exact C1]. rewrite Forall_forall in *. intros x Hx. apply in_map_iff in Hx as [pf [<- Hx]]. exact (R1 _ Hx).
Qed.
End Order.
