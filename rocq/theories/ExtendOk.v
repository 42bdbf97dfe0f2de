(** When extend_structure_from_strpaths builds a new structure. *)
From Verif Require Import Base BaseLemmas TreeUtil TreeSpec TreeProofs ExtendProofs NonSeqSpec NonSeqProofs NonSeqRun ConcretizeSpec ConnSpec CompileSpec.
Local Open Scope list_scope.

(** numbers written in the standard way *)
Definition standard (ks : list string) : Prop := Forall (fun k => isdigit k = true -> k = str_of (int_of k)) ks.

Section ExtendOk.
Context {A : Type}.
Variable eqA : A -> A -> bool.
Variable sep : ascii.

Fixpoint room (t : tree A) (ks : list string) : Prop :=
  match ks with
  | [] => False
  | k :: ks' =>
      match ks' with
      | [] => match t with
              | Dict d => dget d k = None
              | Lst l => isdigit k = true /\ nth (int_of k) l NoneT = NoneT
              | _ => False
              end
      | _ :: _ => match t with
                  | Dict d => match dget d k with None => True | Some c => room c ks' end
                  | Lst l => isdigit k = true /\ match nth (int_of k) l NoneT with NoneT => True | c => room c ks' end
                  | _ => False
                  end
      end
  end.

Lemma room_dict d k k2 ks : room (Dict d) (k :: k2 :: ks) = match dget d k with None => True | Some c => room c (k2 :: ks) end.
Proof. reflexivity. Qed.
Lemma room_lst l k k2 ks : room (Lst l) (k :: k2 :: ks) =
  (isdigit k = true /\ match nth (int_of k) l NoneT with NoneT => True | c => room c (k2 :: ks) end).
Proof. reflexivity. Qed.

Lemma nth_pad (l : list (tree A)) i j : nth j (pad l i) NoneT = nth j l NoneT.
Proof.
  unfold pad. destruct (Nat.lt_ge_cases j (length l)) as [H|H].
  - apply app_nth1. exact H.
  - rewrite app_nth2, (nth_overflow l) by exact H. apply nth_repeat.
Qed.
Lemma nth_upd_other (l : list (tree A)) i j c : i <> j -> nth j (upd l i c) NoneT = nth j l NoneT.
Proof. revert i j. induction l as [|x l IH]; intros [|i] [|j] H; simpl; auto; congruence. Qed.

Lemma room_new nk ks k : (isdigit nk = true -> isdigit k = true) -> room (new_node nk) (k :: ks).
Proof.
  intros H. unfold new_node. destruct (isdigit nk); destruct ks; simpl; auto.
  - split; [auto|]. destruct (int_of k); reflexivity.
  - split; [auto|]. destruct (int_of k); exact I.
Qed.

Lemma extend_walk_ok ps : forall (t : tree A) done fill, room t ps ->
  exists t', extend_walk eqA sep t done ps fill = Ok (t', []).
Proof.
  induction ps as [|k ps IH]; intros t done fill H; [destruct H|]. cbn [extend_walk].
  destruct t as [a| |d|l|l]; try (simpl in H; destruct ps; contradiction); unfold extend_node.
  - destruct ps as [|k2 ps].
    + simpl in H. rewrite H. eauto.
    + simpl in H. fold (room) in H. destruct (dget d k) as [c|] eqn:E.
      * destruct (IH c (done ++ [k]) fill H) as [c' Hc]. rewrite Hc. cbn [rbind]. eauto.
      * destruct (IH (new_node k2) (done ++ [k]) fill (room_new k2 ps k2 (fun h => h))) as [c' Hc]. rewrite Hc. cbn [rbind]. eauto.
  - destruct ps as [|k2 ps].
    + simpl in H. destruct H as [ -> H]. rewrite nth_pad, H. eauto.
    + destruct H as [ -> H]. rewrite nth_pad. destruct (nth (int_of k) l NoneT) as [a| |d|l1|l1] eqn:E.
      2: { destruct (IH (new_node k2) (done ++ [k]) fill (room_new k2 ps k2 (fun h => h))) as [c' Hc]. rewrite Hc. cbn [rbind]. eauto. }
      all: match type of H with room ?c _ => destruct (IH c (done ++ [k]) fill H) as [c' Hc] end; rewrite Hc; cbn [rbind]; eauto.
Qed.

(** [q] can still be placed after [p] *)
Fixpoint after (p q : list string) : Prop :=
  match p, q with
  | a :: p', b :: q' =>
      (a <> b /\ (isdigit a = true -> isdigit b = true -> int_of a <> int_of b)) \/
      (a = b /\ match p', q' with
                | a' :: _, b' :: _ => (isdigit a' = true -> isdigit b' = true) /\ after p' q'
                | _, _ => False
                end)
  | _, _ => False
  end.

Lemma extend_walk_room p : forall (t : tree A) done fill t' rec q, room t p -> room t q -> after p q ->
  extend_walk eqA sep t done p fill = Ok (t', rec) -> room t' q.
Proof.
  induction p as [|a p IH]; intros t done fill t' rec q Hp Hq Ha H; [destruct Hp|].
  destruct q as [|b q]; [destruct Ha|]. cbn [extend_walk] in H.
  destruct t as [x| |d|l|l]; try (simpl in Hp; destruct p; contradiction); unfold extend_node in H.
  - destruct Ha as [[Hne Hd]|[E Ha]].
    + assert (G : forall c, room (Dict (dset d a c)) (b :: q)).
      { intros c. destruct q as [|b2 q]; simpl in Hq |- *; rewrite (dget_dset_other) by congruence; exact Hq. }
      destruct p as [|a2 p].
      * simpl in Hp. rewrite Hp in H. injection H as <- <-. apply G.
      * apply rbind_ok in H as [[c' r'] [_ H]]. injection H as <- <-. apply G.
    + subst b. destruct p as [|a2 p]; [destruct Ha|]. destruct q as [|b2 q]; [destruct Ha|]. destruct Ha as [Hd Ha].
      apply rbind_ok in H as [[c' r'] [H1 H]]. injection H as <- <-.
      rewrite room_dict in *. rewrite dget_dset_same. destruct (dget d a) as [c|] eqn:Ed.
      * eapply IH; [exact Hp|exact Hq|exact Ha|exact H1].
      * eapply IH; [apply (room_new a2 p a2 (fun h => h))|apply (room_new a2 q b2 Hd)|exact Ha|exact H1].
  - assert (Hda : isdigit a = true) by (destruct p; apply Hp). assert (Hdb : isdigit b = true) by (destruct q; apply Hq).
    rewrite Hda in H. rewrite nth_pad in H.
    destruct Ha as [[Hne Hd]|[E Ha]].
    + assert (G : forall c, room (Lst (upd (pad l (int_of a)) (int_of a) c)) (b :: q)).
      { intros c. destruct q as [|b2 q]; cbn [room] in Hq |- *; rewrite nth_upd_other, nth_pad by auto; exact Hq. }
      destruct p as [|a2 p].
      * destruct Hp as [_ Hp]. rewrite Hp in H. injection H as <- <-. apply G.
      * apply rbind_ok in H as [[c' r'] [_ H]]. injection H as <- <-. apply G.
    + subst b. destruct p as [|a2 p]; [destruct Ha|]. destruct q as [|b2 q]; [destruct Ha|]. destruct Ha as [Hd Ha].
      apply rbind_ok in H as [[c' r'] [H1 H]]. injection H as <- <-.
      rewrite room_lst in *. split; [exact Hda|]. assert (Hl := pad_length l (int_of a)).
      rewrite (nth_error_nth (upd (pad l (int_of a)) (int_of a) c') (int_of a) NoneT (x := c'))
        by (apply nth_upd_same; destruct Hl; assumption).
      assert (G : room c' (b2 :: q)).
      { destruct Hp as [_ Hp]. destruct Hq as [_ Hq].
        destruct (nth (int_of a) l NoneT) as [y| |d1|l1|l1] eqn:E.
        2: { eapply IH; [apply (room_new a2 p a2 (fun h => h))|apply (room_new a2 q b2 Hd)|exact Ha|exact H1]. }
        all: eapply IH; [exact Hp|exact Hq|exact Ha|exact H1]. }
      destruct c'; try exact G. exact I.
Qed.

Lemma extend_fold_ok pfs : forall (t : tree A) recs,
  Forall (fun pf => room t (split sep (fst pf))) pfs ->
  ForallOrdPairs (fun pf qf => after (split sep (fst pf)) (split sep (fst qf))) pfs ->
  exists t', rfold (fun '(t, recs) '(p, fill) =>
           let* (t', r) := extend_walk eqA sep t [] (split sep p) fill in Ok (t', recs ++ r))
        pfs (t, recs) = Ok (t', recs).
Proof.
  induction pfs as [|[p f] pfs IH]; intros t recs Hr Ho; [eexists; reflexivity|].
  apply Forall_cons_iff in Hr as [Hr Hrs]. inversion Ho as [|? ? Hpq Ho']; subst. cbn [fst] in *.
  destruct (extend_walk_ok _ t [] f Hr) as [t1 H1]. cbn [rfold]. rewrite H1. cbn [rbind]. rewrite app_nil_r.
  apply IH; [|exact Ho']. apply Forall_forall. intros q Hq.
  rewrite Forall_forall in Hrs, Hpq. eapply extend_walk_room; [exact Hr|apply Hrs; exact Hq|apply Hpq; exact Hq|exact H1].
Qed.

Lemma after_uniform P : uniform P -> forall c p q, In (c ++ p) P -> In (c ++ q) P -> standard p -> standard q ->
  ~ prefix p q -> ~ prefix q p -> after p q.
Proof.
  intros HU c p. revert c. induction p as [|a p IH]; intros c q Hp Hq Sp Sq N1 N2.
  - exfalso. apply N1. exists q. reflexivity.
  - destruct q as [|b q]; [exfalso; apply N2; exists (a :: p); reflexivity|].
    apply Forall_cons_iff in Sp as [Sa Sp]. apply Forall_cons_iff in Sq as [Sb Sq].
    destruct (string_dec a b) as [E|Hne].
    + subst b. right. split; [reflexivity|].
      assert (N1' : ~ prefix p q) by (intros [r E]; apply N1; exists r; simpl; congruence).
      assert (N2' : ~ prefix q p) by (intros [r E]; apply N2; exists r; simpl; congruence).
      assert (Ep : c ++ a :: p = (c ++ [a]) ++ p) by (rewrite <- app_assoc; reflexivity).
      assert (Eq : c ++ a :: q = (c ++ [a]) ++ q) by (rewrite <- app_assoc; reflexivity).
      rewrite Ep in Hp. rewrite Eq in Hq. assert (G := IH (c ++ [a]) q Hp Hq Sp Sq N1' N2').
      destruct p as [|a2 p]; [destruct G|]. destruct q as [|b2 q]; [destruct p; destruct G|].
      split; [|exact G]. rewrite (HU (c ++ [a]) a2 b2 p q Hp Hq); [auto|]. destruct c; discriminate.
    + left. split; [exact Hne|]. intros Da Db E. apply Hne. rewrite (Sa Da), (Sb Db), E. reflexivity.
Qed.

Lemma ordpairs_nth {X} (R : X -> X -> Prop) l :
  (forall i j x y, nth_error l i = Some x -> nth_error l j = Some y -> i < j -> R x y) -> ForallOrdPairs R l.
Proof.
  induction l as [|x l IH]; intros H; constructor.
  - apply Forall_forall. intros y Hy. apply In_nth_error in Hy as [j Hj]. apply (H 0 (S j)); [reflexivity|exact Hj|lia].
  - apply IH. intros i j a b Hi Hj Hij. apply (H (S i) (S j)); [exact Hi|exact Hj|lia].
Qed.

(** prefix-free paths with uniform keys can be placed in a new structure *)
Theorem extend_none_ok paths fv :
  length (match fv with FillList l => l | FillOne v => repeat v (length paths) end) = length paths ->
  Forall (fun p => p <> EmptyString) paths ->
  Forall (fun p => standard (split sep p)) paths ->
  uniform (map (split sep) paths) ->
  (forall i j p q, nth_error paths i = Some p -> nth_error paths j = Some q -> i <> j -> ~ prefix (split sep p) (split sep q)) ->
  exists t, extend_structure eqA sep None paths fv = Ok (t : tree A).
Proof.
  intros Hl Hne Hs HU Hpf. unfold extend_structure.
  set (fills := match fv with FillList l => l | FillOne v => _ end) in *. rewrite Hl, Nat.eqb_refl. cbn [negb].
  set (b := if forallb _ _ then Lst [] else Dict []).
  assert (Hbt : (match b with Tup l => (Lst l, true) | _ => (b, false) end) = (b, false)).
  { subst b; destruct (forallb _ _); reflexivity. }
  rewrite Hbt. clear Hbt.
  assert (Hf : map fst (combine paths fills) = paths) by (apply combine_fst; exact Hl).
  destruct (extend_fold_ok (combine paths fills) b []) as [t Ht].
  - apply Forall_forall. intros [p f] Hi. apply in_combine_l in Hi. cbn [fst].
    rewrite Forall_forall in Hne. assert (Hp := Hne p Hi).
    destruct (split sep p) as [|k ks] eqn:E; [exfalso; eapply split_nonempty; exact E|].
    subst b. destruct (forallb isdigit _) eqn:Ef.
    + assert (Hk : isdigit k = true).
      { rewrite forallb_forall in Ef. apply Ef. apply in_map_iff. exists p. split.
        - rewrite split1_spec, E. destruct ks; reflexivity.
        - apply filter_In. split; [exact Hi|]. destruct (String.eqb_spec p EmptyString); [contradiction|reflexivity]. }
      destruct ks; cbn [room]; (split; [exact Hk|]); destruct (int_of k); try reflexivity; exact I.
    + destruct ks; cbn [room dget]; [reflexivity|exact I].
  - apply ordpairs_nth. intros i j [p f] [q g] Hi Hj Hij. cbn [fst].
    assert (Hi' : nth_error paths i = Some p) by (rewrite <- Hf, nth_error_map, Hi; reflexivity).
    assert (Hj' : nth_error paths j = Some q) by (rewrite <- Hf, nth_error_map, Hj; reflexivity).
    rewrite Forall_forall in Hs.
    apply (after_uniform _ HU []); cbn [app].
    + apply in_map. eapply nth_error_In; exact Hi'.
    + apply in_map. eapply nth_error_In; exact Hj'.
    + apply Hs. eapply nth_error_In; exact Hi'.
    + apply Hs. eapply nth_error_In; exact Hj'.
    + apply (Hpf i j); [exact Hi'|exact Hj'|lia].
    + apply (Hpf j i); [exact Hj'|exact Hi'|lia].
  - rewrite Ht. cbn [rbind]. unfold restore_tuples. cbn [rfold rbind]. eauto.
Qed.
End ExtendOk.
