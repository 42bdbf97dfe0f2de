From Verif Require Import Base BaseLemmas TreeUtil TreeSpec TreeProofs ExtendProofs MutableProofs NonSeqSpec NonSeqProofs Seq SeqSpec ConnProofs.
From Coq Require Import Permutation.
Local Open Scope list_scope.

(* ---- positions ---- *)
Fixpoint ipos (i : nat) (ls : list (list (list string))) : list (list string) :=
  match ls with
  | [] => []
  | ps :: ls' => map (cons (str_of i)) ps ++ ipos (S i) ls'
  end.
Fixpoint poss {X} (t : tree X) : list (list string) :=
  match t with
  | Leaf _ => [[]]
  | NoneT => []
  | Dict d => concat (map (fun kv => map (cons (fst kv)) (poss (snd kv))) d)
  | Lst l | Tup l => ipos 0 (map poss l)
  end.

Lemma child_lst {A} (l : list (tree A)) i : child (Lst l) (str_of i) = nth_error l i.
Proof. simpl. rewrite isdigit_str_of, int_of_str_of. reflexivity. Qed.
Lemma child_tup {A} (l : list (tree A)) i : child (Tup l) (str_of i) = nth_error l i.
Proof. simpl. rewrite isdigit_str_of, int_of_str_of. reflexivity. Qed.

Lemma leaf_pos_walk {A} (t : tree A) p x : leaf_pos t p x -> walk t p = Some (Leaf x).
Proof.
  induction 1 as [x|d k u p x H _ IH|l i u p x H _ IH|l i u p x H _ IH]; [reflexivity| | |].
  - simpl. rewrite H. exact IH.
  - cbn [walk]. rewrite child_lst, H. exact IH.
  - cbn [walk]. rewrite child_tup, H. exact IH.
Qed.

Lemma Forall2_map_cons {Y} (u w : tree Y) k ps (ys : list (tree Y)) :
  child u k = Some w -> Forall2 (fun p y => walk w p = Some y) ps ys ->
  Forall2 (fun p y => walk u p = Some y) (map (cons k) ps) ys.
Proof.
  intros Hc H. induction H as [|p y ps ys H _ IH]; [constructor|]. simpl. constructor; [|exact IH].
  cbn [walk]. rewrite Hc. exact H.
Qed.

(* ---- def_leaves at the positions ---- *)
Lemma Forall2_ipos {Z Y} (f : tree Z -> list Y) (R : list string -> Y -> Prop) (u : tree Z) (l : list (tree Z)) :
  forall i,
  (forall j x, nth_error l j = Some x -> Forall2 R (map (cons (str_of (i + j))) (poss x)) (f x)) ->
  Forall2 R (ipos i (map poss l)) (concat (map f l)).
Proof.
  induction l as [|x l IH]; intros i H; simpl; [constructor|]. apply Forall2_app.
  - specialize (H 0 x eq_refl). rewrite Nat.add_0_r in H. exact H.
  - apply IH. intros j y Hj. specialize (H (S j) y Hj). rewrite Nat.add_succ_r in H. exact H.
Qed.

Lemma def_leaves_poss {X} (t : tree X) : wf_tree t ->
  Forall2 (fun p x => walk t p = Some (Leaf x)) (poss t) (def_leaves t).
Proof.
  induction t as [x| |d IH|l IH|l IH] using tree_ind2; intros Hwf.
  - repeat constructor.
  - constructor.
  - inversion Hwf as [| |d' Hnd Hfd| |]; subst. simpl.
    assert (G : forall d', incl d' d -> Forall2 (fun p x => walk (Dict d) p = Some (Leaf x))
       (concat (map (fun kv => map (cons (fst kv)) (poss (snd kv))) d')) (concat (map (fun kv => def_leaves (snd kv)) d'))).
    { induction d' as [|[k x] d' IHd]; intros Hi; simpl; [constructor|]. apply Forall2_app.
      - assert (Hin : In (k, x) d) by (apply Hi; left; reflexivity).
        rewrite Forall_forall in IH, Hfd. specialize (IH _ Hin (Hfd _ Hin)). simpl in IH.
        assert (Hg : dget d k = Some x) by (apply In_dget; assumption).
        clear -IH Hg. induction IH as [|p y ps ys H _ IHF]; [constructor|]. simpl. constructor; [|exact IHF].
        cbn [walk child]. rewrite Hg. exact H.
      - apply IHd. intros z Hz. apply Hi. right; exact Hz. }
    apply G. apply incl_refl.
  - inversion Hwf as [| | |l' Hf|]; subst. apply (Forall2_ipos def_leaves _ (Lst l)). intros j x Hj. simpl (0 + j).
    rewrite Forall_forall in IH, Hf. assert (Hin := nth_error_In _ _ Hj). specialize (IH _ Hin (Hf _ Hin)).
    clear -IH Hj. induction IH as [|p y ps ys H _ IHF]; [constructor|]. simpl. constructor; [|exact IHF].
    cbn [walk]. rewrite child_lst, Hj. exact H.
  - inversion Hwf as [| | | |l' Hf]; subst. apply (Forall2_ipos def_leaves _ (Tup l)). intros j x Hj. simpl (0 + j).
    rewrite Forall_forall in IH, Hf. assert (Hin := nth_error_In _ _ Hj). specialize (IH _ Hin (Hf _ Hin)).
    clear -IH Hj. induction IH as [|p y ps ys H _ IHF]; [constructor|]. simpl. constructor; [|exact IHF].
    cbn [walk]. rewrite child_tup, Hj. exact H.
Qed.

(* ---- flatten_up_to ---- *)
Section Flat.
Context {X Y : Type}.
Definition flat_dict (e : list (string * tree Y)) : list (string * tree X) -> result (list (tree Y)) :=
  fix flat_dict (d : list (string * tree X)) : result (list (tree Y)) :=
  match d with
  | [] => Ok []
  | (k, x) :: d' =>
      match dget e k with
      | Some y => let* a := flatten_up_to x y in let* b := flat_dict d' in Ok (a ++ b)
      | None => Err ValueError
      end
  end.
Fixpoint flat_list (l : list (tree X)) (m : list (tree Y)) : result (list (tree Y)) :=
  match l, m with
  | [], [] => Ok []
  | x :: l', y :: m' => let* a := flatten_up_to x y in let* b := flat_list l' m' in Ok (a ++ b)
  | _, _ => Err ValueError
  end.
Lemma flatten_dct (d : list (string * tree X)) (e : list (string * tree Y)) : flatten_up_to (Dict d) (Dict e) =
  if negb (Nat.eqb (length d) (length e)) then Err ValueError else flat_dict e d.
Proof. reflexivity. Qed.
Lemma flatten_lst (l : list (tree X)) (m : list (tree Y)) : flatten_up_to (Lst l) (Lst m) = flat_list l m.
Proof. reflexivity. Qed.
Lemma flatten_tup (l : list (tree X)) (m : list (tree Y)) : flatten_up_to (Tup l) (Tup m) = flat_list l m.
Proof. reflexivity. Qed.

Lemma flat_list_pos (l : list (tree X)) :
  Forall (fun t => forall (u : tree Y) us, flatten_up_to t u = Ok us -> Forall2 (fun p y => walk u p = Some y) (poss t) us) l ->
  forall (w : tree Y) i m us, flat_list l m = Ok us ->
  (forall j y, nth_error m j = Some y -> child w (str_of (i + j)) = Some y) ->
  Forall2 (fun p y => walk w p = Some y) (ipos i (map poss l)) us.
Proof.
  induction 1 as [|x l Hx _ IH]; intros w i [|y m] us H Hw; cbn [flat_list] in H; try discriminate.
  - injection H as <-. constructor.
  - apply rbind_ok in H as [a [H1 H]]. apply rbind_ok in H as [b [H2 H]]. injection H as <-.
    simpl. apply Forall2_app.
    + eapply Forall2_map_cons; [|apply Hx; exact H1]. rewrite <- (Nat.add_0_r i). apply Hw. reflexivity.
    + eapply IH; [exact H2|]. intros j z Hj. rewrite Nat.add_succ_comm. apply Hw. exact Hj.
Qed.

Lemma flatten_pos (t : tree X) : forall (u : tree Y) us,
  flatten_up_to t u = Ok us -> Forall2 (fun p y => walk u p = Some y) (poss t) us.
Proof.
  induction t as [x| |d IH|l IH|l IH] using tree_ind2; intros u us H.
  - injection H as <-. repeat constructor.
  - destruct u; try discriminate. injection H as <-. constructor.
  - destruct u as [| |e| |]; try discriminate. rewrite flatten_dct in H.
    destruct (negb _); [discriminate|]. simpl poss. revert us H.
    induction IH as [|[k x] d Hx _ IHd]; intros us H; cbn [flat_dict] in H; simpl.
    + injection H as <-. constructor.
    + destruct (dget e k) as [y|] eqn:Ey; [|discriminate].
      apply rbind_ok in H as [a [H1 H]]. apply rbind_ok in H as [b [H2 H]]. injection H as <-.
      apply Forall2_app; [|apply IHd; exact H2]. eapply Forall2_map_cons; [|apply Hx; exact H1]. exact Ey.
  - destruct u as [| | |m|]; try discriminate. rewrite flatten_lst in H.
    eapply flat_list_pos; [exact IH|exact H|]. intros j y Hj. rewrite child_lst. exact Hj.
  - destruct u as [| | | |m]; try discriminate. rewrite flatten_tup in H.
    eapply flat_list_pos; [exact IH|exact H|]. intros j y Hj. rewrite child_tup. exact Hj.
Qed.

(* ---- unflatten ---- *)
Fixpoint unfl_list (l : list (tree X)) (vs : list (tree Y)) : result (list (tree Y) * list (tree Y)) :=
  match l with
  | [] => Ok ([], vs)
  | x :: l' => let* (y, vs1) := unflatten_part x vs in
               let* (ys, vs2) := unfl_list l' vs1 in Ok (y :: ys, vs2)
  end.
Fixpoint unfl_dict (d : list (string * tree X)) (vs : list (tree Y)) : result (list (string * tree Y) * list (tree Y)) :=
  match d with
  | [] => Ok ([], vs)
  | (k, x) :: d' => let* (y, vs1) := unflatten_part x vs in
                    let* (e, vs2) := unfl_dict d' vs1 in Ok ((k, y) :: e, vs2)
  end.
Lemma unflatten_dct (d : list (string * tree X)) (vs : list (tree Y)) :
  unflatten_part (Dict d) vs = (let* (e, vs') := unfl_dict d vs in Ok (Dict e, vs')).
Proof. reflexivity. Qed.
Lemma unflatten_lst (d : list (tree X)) (vs : list (tree Y)) :
  unflatten_part (Lst d) vs = (let* (e, vs') := unfl_list d vs in Ok (Lst e, vs')).
Proof. reflexivity. Qed.
Lemma unflatten_tup (d : list (tree X)) (vs : list (tree Y)) :
  unflatten_part (Tup d) vs = (let* (e, vs') := unfl_list d vs in Ok (Tup e, vs')).
Proof. reflexivity. Qed.

(** it always succeeds on enough values; flattening gives the values back *)
Lemma unfl_list_ok (l : list (tree X)) :
  Forall (fun t => forall (vs rest : list (tree Y)), length vs = length (def_leaves t) ->
     exists u, unflatten_part t (vs ++ rest) = Ok (u, rest) /\ filled (fun _ _ => True) t u /\ (wf_tree t -> flatten_up_to t u = Ok vs)) l ->
  forall (vs rest : list (tree Y)), length vs = length (concat (map def_leaves l)) ->
  exists us, unfl_list l (vs ++ rest) = Ok (us, rest) /\ Forall2 (filled (fun _ _ => True)) l us /\ (Forall wf_tree l -> flat_list l us = Ok vs).
Proof.
  induction 1 as [|x l Hx _ IH]; intros vs rest Hl.
  - destruct vs; [|discriminate]. exists []. split; [reflexivity|]. split; [constructor|reflexivity].
  - simpl in Hl. rewrite app_length in Hl.
    assert (Hsp : exists v1 v2, vs = v1 ++ v2 /\ length v1 = length (def_leaves x)).
    { exists (firstn (length (def_leaves x)) vs), (skipn (length (def_leaves x)) vs). split; [symmetry; apply firstn_skipn|].
      rewrite firstn_length. lia. }
    destruct Hsp as [v1 [v2 [-> E1]]]. rewrite app_length in Hl.
    destruct (Hx v1 (v2 ++ rest) E1) as [u [U1 [U2 U3]]]. destruct (IH v2 rest ltac:(lia)) as [us [W1 [W2 W3]]].
    exists (u :: us). cbn [unfl_list]. rewrite <- app_assoc, U1. cbn [rbind]. rewrite W1. split; [reflexivity|].
    split; [constructor; assumption|]. intros Hwf. apply Forall_cons_iff in Hwf as [Hw1 Hw2].
    cbn [flat_list]. rewrite U3 by exact Hw1. cbn [rbind]. rewrite W3 by exact Hw2. reflexivity.
Qed.

Lemma unflatten_ok (t : tree X) : forall (vs rest : list (tree Y)),
  length vs = length (def_leaves t) ->
  exists u, unflatten_part t (vs ++ rest) = Ok (u, rest) /\ filled (fun _ _ => True) t u /\
            (wf_tree t -> flatten_up_to t u = Ok vs).
Proof.
  induction t as [x| |d IH|l IH|l IH] using tree_ind2; intros vs rest Hl.
  - destruct vs as [|v [|]]; try discriminate. exists v. split; [reflexivity|]. split; [constructor; exact I|reflexivity].
  - destruct vs; [|discriminate]. exists NoneT. split; [reflexivity|]. split; [constructor|reflexivity].
  - assert (G : exists e, unfl_dict d (vs ++ rest) = Ok (e, rest) /\
       Forall2 (fun a b => fst a = fst b /\ filled (fun _ _ => True) (snd a) (snd b)) d e /\
       (forall e', Forall (fun kv => wf_tree (snd kv)) d -> NoDup (dkeys d) ->
          (forall k y, In (k, y) e -> dget e' k = Some y) -> flat_dict e' d = Ok vs)).
    { revert vs Hl. induction IH as [|[k x] d Hx _ IHd]; intros vs Hl.
      - destruct vs; [|discriminate]. exists []. split; [reflexivity|]. split; [constructor|reflexivity].
      - simpl in Hl. rewrite app_length in Hl.
        assert (Hsp : exists v1 v2, vs = v1 ++ v2 /\ length v1 = length (def_leaves x)).
        { exists (firstn (length (def_leaves x)) vs), (skipn (length (def_leaves x)) vs). split; [symmetry; apply firstn_skipn|].
          rewrite firstn_length. lia. }
        destruct Hsp as [v1 [v2 [-> E1]]]. rewrite app_length in Hl.
        destruct (Hx v1 (v2 ++ rest) E1) as [u [U1 [U2 U3]]]. destruct (IHd v2 ltac:(simpl in *; lia)) as [us [W1 [W2 W3]]].
        exists ((k, u) :: us). cbn [unfl_dict]. simpl in U1. rewrite <- app_assoc, U1. cbn [rbind]. rewrite W1. split; [reflexivity|].
        split; [constructor; [split; [reflexivity|exact U2]|exact W2]|].
        intros e' Hwf Hnd He. apply Forall_cons_iff in Hwf as [Hw1 Hw2]. apply NoDup_cons_iff in Hnd as [_ Hnd].
        cbn [flat_dict]. rewrite (He k u) by (left; reflexivity). simpl in U3, Hw1. rewrite U3 by exact Hw1. cbn [rbind].
        rewrite (W3 e'); [reflexivity|exact Hw2|exact Hnd|]. intros k' y Hi. apply He. right; exact Hi. }
    destruct G as [e [G1 [G2 G3]]]. exists (Dict e). rewrite unflatten_dct, G1. split; [reflexivity|].
    split; [constructor; exact G2|]. intros Hwf. inversion Hwf as [| |d' Hnd Hfd| |]; subst.
    rewrite flatten_dct. rewrite <- (Forall2_len _ _ _ G2), Nat.eqb_refl. cbn [negb].
    apply G3; [exact Hfd|exact Hnd|]. intros k y Hi. apply In_dget; [|exact Hi].
    replace (dkeys e) with (dkeys d); [exact Hnd|]. clear -G2. induction G2 as [|a b d e [E _] _ IH]; [reflexivity|].
    unfold dkeys in *. simpl. f_equal; [exact E|exact IH].
  - simpl in Hl. destruct (unfl_list_ok l IH vs rest Hl) as [us [U1 [U2 U3]]]. exists (Lst us).
    rewrite unflatten_lst, U1. split; [reflexivity|]. split; [constructor; exact U2|].
    intros Hwf. inversion Hwf; subst. rewrite flatten_lst. apply U3. assumption.
  - simpl in Hl. destruct (unfl_list_ok l IH vs rest Hl) as [us [U1 [U2 U3]]]. exists (Tup us).
    rewrite unflatten_tup, U1. split; [reflexivity|]. split; [constructor; exact U2|].
    intros Hwf. inversion Hwf; subst. rewrite flatten_tup. apply U3. assumption.
Qed.
End Flat.
