(** Proofs about getitem_by_strpath / setitem_by_strpath. *)
From Verif Require Import Base BaseLemmas TreeUtil TreeSpec.

Section TreeInd.
Context {A : Type}.
Variable P : tree A -> Prop.
Hypothesis Hleaf : forall a, P (Leaf a).
Hypothesis Hnone : P NoneT.
Hypothesis Hdict : forall d, Forall (fun kv => P (snd kv)) d -> P (Dict d).
Hypothesis Hlst : forall l, Forall P l -> P (Lst l).
Hypothesis Htup : forall l, Forall P l -> P (Tup l).
Fixpoint tree_ind' (t : tree A) : P t :=
  match t with
  | Leaf a => Hleaf a
  | NoneT => Hnone
  | Dict d => Hdict d
      ((fix go (d : list (string * tree A)) : Forall (fun kv => P (snd kv)) d :=
          match d with
          | [] => Forall_nil _
          | kv :: d' => Forall_cons kv (tree_ind' (snd kv)) (go d')
          end) d)
  | Lst l => Hlst l
      ((fix go (l : list (tree A)) : Forall P l :=
          match l with
          | [] => Forall_nil _
          | x :: l' => Forall_cons x (tree_ind' x) (go l')
          end) l)
  | Tup l => Htup l
      ((fix go (l : list (tree A)) : Forall P l :=
          match l with
          | [] => Forall_nil _
          | x :: l' => Forall_cons x (tree_ind' x) (go l')
          end) l)
  end.
End TreeInd.

Section GetSetProofs.
Context {A : Type}.
Variable sep : ascii.

(* -------- fuel-free equations -------- *)
Lemma getitem_fuel_enough is_leaf early f1 f2 (t : tree A) s :
  slen s < f1 -> slen s < f2 ->
  getitem_fuel sep is_leaf early f1 t s = getitem_fuel sep is_leaf early f2 t s.
Proof.
  revert f2 t s; induction f1 as [|f1 IH]; intros f2 t s H1 H2; [lia|].
  destruct f2 as [|f2]; [lia|]. cbn [getitem_fuel].
  destruct s as [|c s]; [reflexivity|].
  destruct (is_leaf t); [reflexivity|].
  destruct (split1 sep (String c s)) as [key rest] eqn:Es.
  set (rest' := match rest with Some r => r | None => EmptyString end).
  assert (Hr : slen rest' < slen (String c s)).
  { subst rest'; destruct rest as [r|]; [eapply split1_rest_len; eauto|simpl; lia]. }
  destruct t as [a| |d|l|l]; try reflexivity.
  - destruct (dget d key) as [t'|]; [|reflexivity]. apply IH; lia.
  - destruct (isdigit key); [|reflexivity].
    destruct (nth_error l (int_of key)) as [t'|]; [|reflexivity]. apply IH; lia.
  - destruct (isdigit key); [|reflexivity].
    destruct (nth_error l (int_of key)) as [t'|]; [|reflexivity]. apply IH; lia.
Qed.

Definition rest_str (r : option string) : string :=
  match r with Some r => r | None => EmptyString end.

Lemma getitem_unfold is_leaf early (t : tree A) s :
  getitem sep is_leaf early t s =
  match s with
  | EmptyString => Ok (t, EmptyString)
  | _ =>
    if is_leaf t then if early then Ok (t, s) else Err TypeError
    else
      let '(key, rest) := split1 sep s in
      match t with
      | Dict d => match dget d key with
                  | Some t' => getitem sep is_leaf early t' (rest_str rest)
                  | None => Err KeyError
                  end
      | Lst l | Tup l =>
          if isdigit key then
            match nth_error l (int_of key) with
            | Some t' => getitem sep is_leaf early t' (rest_str rest)
            | None => Err IndexError
            end
          else Err KeyError
      | Leaf _ | NoneT => if early then Ok (t, s) else Err TypeError
      end
  end.
Proof.
  unfold getitem at 1. cbn [getitem_fuel].
  destruct s as [|c s]; [reflexivity|].
  destruct (is_leaf t); [reflexivity|].
  destruct (split1 sep (String c s)) as [key rest] eqn:Es.
  assert (Hr : slen (rest_str rest) < slen (String c s)).
  { destruct rest as [r|]; [eapply split1_rest_len; eauto|simpl; lia]. }
  unfold getitem, rest_str in *.
  destruct t as [a| |d|l|l]; try reflexivity.
  - destruct (dget d key) as [t'|]; [|reflexivity]. apply getitem_fuel_enough; lia.
  - destruct (isdigit key); [|reflexivity].
    destruct (nth_error l (int_of key)) as [t'|]; [|reflexivity]. apply getitem_fuel_enough; lia.
  - destruct (isdigit key); [|reflexivity].
    destruct (nth_error l (int_of key)) as [t'|]; [|reflexivity]. apply getitem_fuel_enough; lia.
Qed.

Lemma setitem_fuel_enough is_leaf f1 f2 (t : tree A) s v :
  slen s < f1 -> slen s < f2 ->
  setitem_fuel sep is_leaf f1 t s v = setitem_fuel sep is_leaf f2 t s v.
Proof.
  revert f2 t s; induction f1 as [|f1 IH]; intros f2 t s H1 H2; [lia|].
  destruct f2 as [|f2]; [lia|]. cbn [setitem_fuel].
  destruct s as [|c s]; [reflexivity|].
  destruct (is_leaf t); [reflexivity|].
  destruct (split1 sep (String c s)) as [key [r|]] eqn:Es; [|reflexivity].
  assert (Hr : slen r < slen (String c s)) by (eapply split1_rest_len; eauto).
  destruct t as [a| |d|l|l]; try reflexivity.
  - destruct (dget d key) as [t'|]; [|reflexivity]. rewrite (IH f2) by lia; reflexivity.
  - destruct (isdigit key); [|reflexivity].
    destruct (nth_error l (int_of key)) as [t'|]; [|reflexivity]. rewrite (IH f2) by lia; reflexivity.
  - destruct (isdigit key); [|reflexivity].
    destruct (nth_error l (int_of key)) as [t'|]; [|reflexivity]. rewrite (IH f2) by lia; reflexivity.
Qed.

Lemma setitem_unfold is_leaf (t : tree A) s v :
  setitem sep is_leaf t s v =
  match s with
  | EmptyString => Err ValueError
  | _ =>
    if is_leaf t then Err TypeError
    else
      let '(key, rest) := split1 sep s in
      match t with
      | Dict d =>
          match rest with
          | Some r => match dget d key with
                      | Some t' => let* t'' := setitem sep is_leaf t' r v in Ok (Dict (dset d key t''))
                      | None => Err KeyError
                      end
          | None => Ok (Dict (dset d key v))
          end
      | Lst l =>
          if isdigit key then
            match rest with
            | Some r => match nth_error l (int_of key) with
                        | Some t' => let* t'' := setitem sep is_leaf t' r v in Ok (Lst (upd l (int_of key) t''))
                        | None => Err IndexError
                        end
            | None => if int_of key <? length l then Ok (Lst (upd l (int_of key) v)) else Err IndexError
            end
          else Err KeyError
      | Tup l =>
          if isdigit key then
            match rest with
            | Some r => match nth_error l (int_of key) with
                        | Some t' => let* t'' := setitem sep is_leaf t' r v in Ok (Tup (upd l (int_of key) t''))
                        | None => Err IndexError
                        end
            | None => Err TypeError
            end
          else Err KeyError
      | Leaf _ | NoneT => Err TypeError
      end
  end.
Proof.
  unfold setitem at 1. cbn [setitem_fuel].
  destruct s as [|c s]; [reflexivity|].
  destruct (is_leaf t); [reflexivity|].
  destruct (split1 sep (String c s)) as [key [r|]] eqn:Es; [|reflexivity].
  assert (Hr : slen r < slen (String c s)) by (eapply split1_rest_len; eauto).
  unfold setitem.
  destruct t as [a| |d|l|l]; try reflexivity.
  - destruct (dget d key) as [t'|]; [|reflexivity].
    rewrite (setitem_fuel_enough is_leaf _ (S (slen r)) t' r) by lia; reflexivity.
  - destruct (isdigit key); [|reflexivity].
    destruct (nth_error l (int_of key)) as [t'|]; [|reflexivity].
    rewrite (setitem_fuel_enough is_leaf _ (S (slen r)) t' r) by lia; reflexivity.
  - destruct (isdigit key); [|reflexivity].
    destruct (nth_error l (int_of key)) as [t'|]; [|reflexivity].
    rewrite (setitem_fuel_enough is_leaf _ (S (slen r)) t' r) by lia; reflexivity.
Qed.

(* -------- component-level versions -------- *)
(** the same two functions on component lists; [parts = split sep path] *)
Fixpoint getp (early : bool) (t : tree A) (parts : list string) : result (tree A * list string) :=
  match parts with
  | [] => Ok (t, [])
  | key :: parts' =>
      if (String.eqb key EmptyString) && (match parts' with [] => true | _ => false end)
      then Ok (t, [])
      else
        match t with
        | Dict d => match dget d key with
                    | Some t' => getp early t' parts'
                    | None => Err KeyError
                    end
        | Lst l | Tup l =>
            if isdigit key then
              match nth_error l (int_of key) with
              | Some t' => getp early t' parts'
              | None => Err IndexError
              end
            else Err KeyError
        | Leaf _ | NoneT => if early then Ok (t, parts) else Err TypeError
        end
  end.

Fixpoint setp (t : tree A) (parts : list string) (v : tree A) : result (tree A) :=
  match parts with
  | [] => Err ValueError
  | key :: parts' =>
      if (String.eqb key EmptyString) && (match parts' with [] => true | _ => false end)
      then Err ValueError
      else
        match t with
        | Dict d =>
            match parts' with
            | [] => Ok (Dict (dset d key v))
            | _ => match dget d key with
                   | Some t' => let* t'' := setp t' parts' v in Ok (Dict (dset d key t''))
                   | None => Err KeyError
                   end
            end
        | Lst l =>
            if isdigit key then
              match parts' with
              | [] => if int_of key <? length l then Ok (Lst (upd l (int_of key) v)) else Err IndexError
              | _ => match nth_error l (int_of key) with
                     | Some t' => let* t'' := setp t' parts' v in Ok (Lst (upd l (int_of key) t''))
                     | None => Err IndexError
                     end
              end
            else Err KeyError
        | Tup l =>
            if isdigit key then
              match parts' with
              | [] => Err TypeError
              | _ => match nth_error l (int_of key) with
                     | Some t' => let* t'' := setp t' parts' v in Ok (Tup (upd l (int_of key) t''))
                     | None => Err IndexError
                     end
              end
            else Err KeyError
        | Leaf _ | NoneT => Err TypeError
        end
  end.

Definition nosep_parts (ps : list string) : Prop := Forall (fun p => no_sep sep p = true) ps.

Lemma join_parts_empty k ps :
  join sep (k :: ps) = EmptyString <-> k = EmptyString /\ ps = [].
Proof.
  rewrite join_nil_iff. split.
  - intros [H|H]; [discriminate|]. injection H as -> ->; auto.
  - intros [-> ->]; auto.
Qed.

Lemma getitem_join early (t : tree A) parts :
  nosep_parts parts ->
  getitem sep no_leaf early t (join sep parts) =
  rmap (fun '(u, r) => (u, join sep r)) (getp early t parts).
Proof.
  revert t; induction parts as [|k ps IH]; intros t Hns; [reflexivity|].
  inversion Hns as [|? ? Hk Hps]; subst.
  cbn [getp].
  destruct (String.eqb k EmptyString && match ps with [] => true | _ => false end) eqn:Ee.
  - apply andb_true_iff in Ee as [Ek Eps]. apply String.eqb_eq in Ek as ->.
    destruct ps; [reflexivity|discriminate].
  - rewrite getitem_unfold.
    destruct (join sep (k :: ps)) as [|c s] eqn:Ej.
    { apply join_parts_empty in Ej as [-> ->]. discriminate. }
    cbn [no_leaf]. rewrite <- Ej. rewrite split1_spec.
    rewrite split_join by (assumption || discriminate).
    assert (Hrest : forall t' : tree A,
      getitem sep no_leaf early t' (rest_str (match ps with [] => None | _ => Some (join sep ps) end))
      = rmap (fun '(u, r) => (u, join sep r)) (getp early t' ps)).
    { intros t'. rewrite <- IH by exact Hps. destruct ps; reflexivity. }
    assert (Hpair : match ps with [] => (k, None) | _ :: _ => (k, Some (join sep ps)) end
             = (k, match ps with [] => None | _ => Some (join sep ps) end))
      by (destruct ps; reflexivity).
    rewrite Hpair.
    destruct t as [a| |d|l|l]; try (destruct early; reflexivity).
    + destruct (dget d k); [apply Hrest|reflexivity].
    + destruct (isdigit k); [|reflexivity]. destruct (nth_error l (int_of k)); [apply Hrest|reflexivity].
    + destruct (isdigit k); [|reflexivity]. destruct (nth_error l (int_of k)); [apply Hrest|reflexivity].
Qed.

Lemma getitem_split early (t : tree A) s :
  getitem sep no_leaf early t s =
  rmap (fun '(u, r) => (u, join sep r)) (getp early t (split sep s)).
Proof. rewrite <- (join_split sep s) at 1. apply getitem_join, split_no_sep. Qed.

Lemma setitem_join (t : tree A) parts v :
  nosep_parts parts -> setitem sep no_leaf t (join sep parts) v = setp t parts v.
Proof.
  revert t; induction parts as [|k ps IH]; intros t Hns; [reflexivity|].
  inversion Hns as [|? ? Hk Hps]; subst.
  cbn [setp].
  destruct (String.eqb k EmptyString && match ps with [] => true | _ => false end) eqn:Ee.
  - apply andb_true_iff in Ee as [Ek Eps]. apply String.eqb_eq in Ek as ->.
    destruct ps; [reflexivity|discriminate].
  - rewrite setitem_unfold.
    destruct (join sep (k :: ps)) as [|c s] eqn:Ej.
    { apply join_parts_empty in Ej as [-> ->]. discriminate. }
    cbn [no_leaf]. rewrite <- Ej. rewrite split1_spec.
    rewrite split_join by (assumption || discriminate).
    destruct ps as [|k2 ps2]; [reflexivity|].
    assert (Hrest : forall t' : tree A,
      setitem sep no_leaf t' (join sep (k2 :: ps2)) v = setp t' (k2 :: ps2) v)
      by (intros t'; apply IH; exact Hps).
    destruct t as [a| |d|l|l]; try reflexivity.
    + destruct (dget d k); [rewrite Hrest|]; reflexivity.
    + destruct (isdigit k); [|reflexivity]. destruct (nth_error l (int_of k)); [rewrite Hrest|]; reflexivity.
    + destruct (isdigit k); [|reflexivity]. destruct (nth_error l (int_of k)); [rewrite Hrest|]; reflexivity.
Qed.

Lemma setitem_split (t : tree A) s v :
  setitem sep no_leaf t s v = setp t (split sep s) v.
Proof. rewrite <- (join_split sep s) at 1. apply setitem_join, split_no_sep. Qed.

(* -------- write then read (C01) -------- *)
Lemma getp_nil early (t : tree A) : getp early t [] = Ok (t, []).
Proof. reflexivity. Qed.

Lemma setp_getp early (t t' : tree A) parts v :
  setp t parts v = Ok t' -> getp early t' parts = Ok (v, []).
Proof.
  revert t t'; induction parts as [|k ps IH]; intros t t' H; [discriminate|].
  cbn [setp getp] in *.
  destruct (String.eqb k EmptyString && match ps with [] => true | _ => false end); [discriminate|].
  destruct t as [a| |d|l|l]; try discriminate.
  - destruct ps as [|k2 ps2].
    + injection H as <-. rewrite dget_dset_same. reflexivity.
    + destruct (dget d k) as [t1|]; [|discriminate]. apply rbind_ok in H as [t2 [H2 H]].
      injection H as <-. rewrite dget_dset_same. eapply IH; eauto.
  - destruct (isdigit k) eqn:Ek; [|discriminate]. destruct ps as [|k2 ps2].
    + destruct (Nat.ltb_spec (int_of k) (length l)) as [Hl|]; [|discriminate].
      injection H as <-. rewrite nth_upd_same by exact Hl. reflexivity.
    + destruct (nth_error l (int_of k)) as [t1|] eqn:En; [|discriminate].
      apply rbind_ok in H as [t2 [H2 H]]. injection H as <-.
      rewrite nth_upd_same by (eapply nth_error_lt; eauto). eapply IH; eauto.
  - destruct (isdigit k) eqn:Ek; [|discriminate]. destruct ps as [|k2 ps2]; [discriminate|].
    destruct (nth_error l (int_of k)) as [t1|] eqn:En; [|discriminate].
    apply rbind_ok in H as [t2 [H2 H]]. injection H as <-.
    rewrite nth_upd_same by (eapply nth_error_lt; eauto). eapply IH; eauto.
Qed.

Lemma setitem_getitem early (t t' : tree A) s v :
  setitem sep no_leaf t s v = Ok t' -> getitem sep no_leaf early t' s = Ok (v, EmptyString).
Proof.
  rewrite setitem_split, getitem_split. intros H. rewrite (setp_getp _ _ _ _ _ H). reflexivity.
Qed.

(* -------- frame (C02) -------- *)
Lemma trim_end_cons2 k k2 ps : trim_end (k :: k2 :: ps) = k :: trim_end (k2 :: ps).
Proof.
  unfold trim_end. change (last (k :: k2 :: ps) EmptyString) with (last (k2 :: ps) EmptyString).
  destruct (String.eqb _ _); reflexivity.
Qed.

Lemma diverge_cons k1 p k2 q :
  diverge (k1 :: p) (k2 :: q) -> key_distinct k1 k2 \/ diverge p q.
Proof.
  intros [i [a [b [H1 [H2 H3]]]]]. destruct i as [|i]; simpl in *.
  - injection H1 as ->; injection H2 as ->; auto.
  - right; exists i, a, b; auto.
Qed.

Lemma diverge_nil_r p : ~ diverge p [].
Proof. intros [i [a [b [_ [H _]]]]]. destruct i; discriminate. Qed.
Lemma diverge_nil_l p : ~ diverge [] p.
Proof. intros [i [a [b [H _]]]]. destruct i; discriminate. Qed.

(** setp never succeeds with a trailing empty component *)
Lemma setp_ok_trim (t t' : tree A) parts v : setp t parts v = Ok t' -> trim_end parts = parts.
Proof.
  revert t t'; induction parts as [|k ps IH]; intros t t' H; [reflexivity|].
  cbn [setp] in H. destruct ps as [|k2 ps2].
  - unfold trim_end; simpl in *. destruct (String.eqb k EmptyString); [discriminate|reflexivity].
  - rewrite trim_end_cons2. rewrite andb_false_r in H.
    destruct t as [a| |d|l|l]; try discriminate.
    + destruct (dget d k) as [t1|]; [|discriminate]. apply rbind_ok in H as [t2 [H2 H]].
      rewrite (IH _ _ H2); reflexivity.
    + destruct (isdigit k); [|discriminate]. destruct (nth_error l (int_of k)) as [t1|]; [|discriminate].
      apply rbind_ok in H as [t2 [H2 H]]. rewrite (IH _ _ H2); reflexivity.
    + destruct (isdigit k); [|discriminate]. destruct (nth_error l (int_of k)) as [t1|]; [|discriminate].
      apply rbind_ok in H as [t2 [H2 H]]. rewrite (IH _ _ H2); reflexivity.
Qed.

Lemma setp_frame early (t t' : tree A) p q v :
  setp t p v = Ok t' -> diverge p (trim_end q) -> getp early t' q = getp early t q.
Proof.
  revert t t' q; induction p as [|k ps IH]; intros t t' q H Hd; [discriminate|].
  destruct q as [|k' q]; [exfalso; eapply diverge_nil_r; exact Hd|].
  cbn [setp] in H. cbn [getp].
  destruct (String.eqb k' EmptyString && match q with [] => true | _ => false end) eqn:Eq0.
  { apply andb_true_iff in Eq0 as [E1 E2]. apply String.eqb_eq in E1 as ->.
    destruct q; [|discriminate]. exfalso; eapply diverge_nil_r; exact Hd. }
  assert (Hd' : key_distinct k k' \/ diverge ps (trim_end q)).
  { destruct q as [|k2 q2].
    - unfold trim_end in Hd; simpl in Hd, Eq0.
      rewrite andb_true_r in Eq0. rewrite Eq0 in Hd.
      apply diverge_cons in Hd as [Hd|Hd]; [auto|]. exfalso; eapply diverge_nil_r; exact Hd.
    - rewrite trim_end_cons2 in Hd. apply diverge_cons in Hd; exact Hd. }
  clear Hd Eq0.
  destruct (String.eqb k EmptyString && match ps with [] => true | _ => false end); [discriminate|].
  destruct t as [a| |d|l|l]; try discriminate.
  - destruct ps as [|k2 ps2].
    + injection H as <-. destruct Hd' as [[Hne _]|Hd']; [|exfalso; eapply diverge_nil_l; eauto].
      rewrite dget_dset_other by congruence. reflexivity.
    + destruct (dget d k) as [t1|] eqn:Ed; [|discriminate]. apply rbind_ok in H as [t2 [H2 H]].
      injection H as <-. destruct (String.eqb_spec k k') as [<-|Hne].
      * rewrite dget_dset_same, Ed. apply (IH _ _ _ H2).
        destruct Hd' as [[Hne _]|Hd']; [congruence|exact Hd'].
      * rewrite dget_dset_other by congruence. reflexivity.
  - destruct (isdigit k) eqn:Ek; [|discriminate]. destruct ps as [|k2 ps2].
    + destruct (Nat.ltb_spec (int_of k) (length l)) as [Hl|]; [|discriminate].
      injection H as <-. destruct Hd' as [[_ Hne]|Hd']; [|exfalso; eapply diverge_nil_l; eauto].
      destruct (isdigit k') eqn:Ek'; [|reflexivity].
      rewrite nth_upd_other by (apply Hne; auto). reflexivity.
    + destruct (nth_error l (int_of k)) as [t1|] eqn:En; [|discriminate].
      apply rbind_ok in H as [t2 [H2 H]]. injection H as <-.
      destruct (isdigit k') eqn:Ek'; [|reflexivity].
      destruct (Nat.eq_dec (int_of k) (int_of k')) as [He|Hne].
      * rewrite <- He, nth_upd_same by (eapply nth_error_lt; eauto). rewrite En.
        apply (IH _ _ _ H2). destruct Hd' as [[_ Hx]|Hd']; [exfalso; apply Hx; auto|exact Hd'].
      * rewrite nth_upd_other by congruence. reflexivity.
  - destruct (isdigit k) eqn:Ek; [|discriminate]. destruct ps as [|k2 ps2]; [discriminate|].
    destruct (nth_error l (int_of k)) as [t1|] eqn:En; [|discriminate].
    apply rbind_ok in H as [t2 [H2 H]]. injection H as <-.
    destruct (isdigit k') eqn:Ek'; [|reflexivity].
    destruct (Nat.eq_dec (int_of k) (int_of k')) as [He|Hne].
    + rewrite <- He, nth_upd_same by (eapply nth_error_lt; eauto). rewrite En.
      apply (IH _ _ _ H2). destruct Hd' as [[_ Hx]|Hd']; [exfalso; apply Hx; auto|exact Hd'].
    + rewrite nth_upd_other by congruence. reflexivity.
Qed.

Lemma setitem_frame early (t t' : tree A) p q v :
  setitem sep no_leaf t p v = Ok t' ->
  diverge (path_keys sep p) (path_keys sep q) ->
  getitem sep no_leaf early t' q = getitem sep no_leaf early t q.
Proof.
  rewrite setitem_split, !getitem_split. intros H Hd. unfold path_keys in Hd.
  rewrite (setp_ok_trim _ _ _ _ H) in Hd. rewrite (setp_frame _ _ _ _ _ _ H Hd). reflexivity.
Qed.

(* -------- when does setitem succeed -------- *)

(* -------- lookup laws (C03) -------- *)
Lemma trim_end_single k : k <> EmptyString -> trim_end [k] = [k].
Proof. intros H; unfold trim_end; simpl. destruct (String.eqb_spec k EmptyString); congruence. Qed.

Lemma getp_false_walk (t : tree A) parts u :
  getp false t parts = Ok (u, []) <-> walk t (trim_end parts) = Some u.
Proof.
  revert t; induction parts as [|k ps IH]; intros t.
  - simpl. unfold trim_end; simpl. split; intros H; injection H as ->; reflexivity.
  - cbn [getp]. destruct (String.eqb k EmptyString && match ps with [] => true | _ => false end) eqn:Ee.
    + apply andb_true_iff in Ee as [E1 E2]. apply String.eqb_eq in E1 as ->.
      destruct ps; [|discriminate]. unfold trim_end; simpl.
      split; intros H; injection H as ->; reflexivity.
    + assert (Ht : trim_end (k :: ps) = k :: trim_end ps).
      { destruct ps; [|apply trim_end_cons2]. rewrite andb_true_r in Ee.
        unfold trim_end; simpl. rewrite Ee. reflexivity. }
      rewrite Ht. simpl. unfold child.
      destruct t as [a| |d|l|l]; try (split; discriminate).
      * destruct (dget d k); [apply IH|split; discriminate].
      * destruct (isdigit k); [|split; discriminate].
        destruct (nth_error l (int_of k)); [apply IH|split; discriminate].
      * destruct (isdigit k); [|split; discriminate].
        destruct (nth_error l (int_of k)); [apply IH|split; discriminate].
Qed.

Lemma getp_false_rem (t : tree A) parts u r : getp false t parts = Ok (u, r) -> r = [].
Proof.
  revert t; induction parts as [|k ps IH]; intros t H.
  - injection H as <- <-; reflexivity.
  - cbn [getp] in H. destruct (String.eqb k EmptyString && match ps with [] => true | _ => false end).
    + injection H as <- <-; reflexivity.
    + destruct t as [a| |d|l|l]; try discriminate.
      * destruct (dget d k); [eauto|discriminate].
      * destruct (isdigit k); [|discriminate]. destruct (nth_error l (int_of k)); [eauto|discriminate].
      * destruct (isdigit k); [|discriminate]. destruct (nth_error l (int_of k)); [eauto|discriminate].
Qed.

Lemma getitem_full_walk (t : tree A) s u :
  getitem sep no_leaf false t s = Ok (u, EmptyString) <-> walk t (path_keys sep s) = Some u.
Proof.
  rewrite getitem_split. unfold path_keys. rewrite <- getp_false_walk.
  destruct (getp false t (split sep s)) as [[u' r]|e] eqn:E; simpl; [|split; discriminate].
  assert (r = []) as -> by (eapply getp_false_rem; eauto). simpl.
  split; intros H; injection H as ->; reflexivity.
Qed.

Lemma getp_true_spec (t : tree A) parts :
  match getp true t parts with
  | Ok (u, []) => getp false t parts = Ok (u, [])
  | Ok (u, r) => getp false t parts = Err TypeError /\ atomic u = true /\
                 trim_end r <> [] /\
                 exists ks, parts = ks ++ r /\ walk t ks = Some u
  | Err e => getp false t parts = Err e /\ e <> TypeError
  end.
Proof.
  revert t; induction parts as [|k ps IH]; intros t; [reflexivity|].
  cbn [getp]. destruct (String.eqb k EmptyString && match ps with [] => true | _ => false end) eqn:Ee; [reflexivity|].
  assert (Hlift : forall t', child t k = Some t' ->
    match getp true t' ps with
    | Ok (u, []) => getp false t' ps = Ok (u, [])
    | Ok (u, r) => getp false t' ps = Err TypeError /\ atomic u = true /\ trim_end r <> [] /\
                   exists ks, k :: ps = ks ++ r /\ walk t ks = Some u
    | Err e => getp false t' ps = Err e /\ e <> TypeError
    end).
  { intros t' Hc. specialize (IH t'). destruct (getp true t' ps) as [[u [|r0 r]]|e]; try exact IH.
    destruct IH as [H1 [H2 [H3 [ks [H4 H5]]]]]. repeat split; auto.
    exists (k :: ks). simpl. rewrite Hc, H4. auto. }
  assert (Hat : forall a : tree A, atomic a = true -> t = a ->
     Err TypeError = @Err (tree A * list string) TypeError /\ atomic t = true /\ trim_end (k :: ps) <> [] /\
     exists ks, k :: ps = ks ++ k :: ps /\ walk t ks = Some t).
  { intros a Ha ->. repeat split; auto; [|exists []; auto].
    destruct ps; [|rewrite trim_end_cons2; discriminate]. rewrite andb_true_r in Ee.
    unfold trim_end; simpl; rewrite Ee; discriminate. }
  destruct t as [a| |d|l|l]; try (eapply Hat; [|reflexivity]; reflexivity).
  - simpl in Hlift. destruct (dget d k) as [t'|]; [apply Hlift; reflexivity|].
    split; [reflexivity|discriminate].
  - simpl in Hlift. destruct (isdigit k); [|split; [reflexivity|discriminate]].
    destruct (nth_error l (int_of k)) as [t'|]; [apply Hlift; reflexivity|].
    split; [reflexivity|discriminate].
  - simpl in Hlift. destruct (isdigit k); [|split; [reflexivity|discriminate]].
    destruct (nth_error l (int_of k)) as [t'|]; [apply Hlift; reflexivity|].
    split; [reflexivity|discriminate].
Qed.

Lemma trim_end_join_ne r : trim_end r <> [] -> join sep r <> EmptyString.
Proof.
  intros H Hj. apply join_nil_iff in Hj as [->| ->]; apply H; reflexivity.
Qed.

Lemma nosep_app_r ks r : nosep_parts (ks ++ r) -> nosep_parts r.
Proof. intros H. apply Forall_app in H. tauto. Qed.

(** the early-return lookup, in terms of walking *)
Lemma getitem_early_spec (t : tree A) s :
  match getitem sep no_leaf true t s with
  | Ok (u, r) =>
      (r = EmptyString /\ walk t (path_keys sep s) = Some u /\
       getitem sep no_leaf false t s = Ok (u, EmptyString))
      \/
      (r <> EmptyString /\ atomic u = true /\
       (exists ks, split sep s = ks ++ split sep r /\ walk t ks = Some u) /\
       getitem sep no_leaf false t s = Err TypeError)
  | Err e => e <> TypeError /\ e <> OutOfFuel /\ getitem sep no_leaf false t s = Err e
  end.
Proof.
  rewrite !getitem_split. assert (H := getp_true_spec t (split sep s)).
  destruct (getp true t (split sep s)) as [[u [|r0 r]]|e] eqn:E; cbn [rmap] in *.
  - left. simpl. rewrite H. split; [reflexivity|]. split; [|reflexivity].
    unfold path_keys. apply getp_false_walk. exact H.
  - destruct H as [H1 [H2 [H3 [ks [H4 H5]]]]]. right. rewrite H1.
    split; [apply trim_end_join_ne; exact H3|]. split; [exact H2|].
    split; [|reflexivity]. exists ks. split; [|exact H5].
    rewrite split_join; [exact H4|discriminate|].
    apply (nosep_app_r ks). rewrite <- H4. apply split_no_sep.
  - destruct H as [H1 H2]. rewrite H1. split; [exact H2|]. split; [|reflexivity].
    clear H1 H2. revert t E. generalize (split sep s). intros parts.
    induction parts as [|k ps IH]; intros t E; [discriminate|].
    cbn [getp] in E. destruct (String.eqb k EmptyString && match ps with [] => true | _ => false end); [discriminate|].
    destruct t as [a| |d|l|l]; try discriminate.
    + destruct (dget d k); [eauto|injection E as <-; discriminate].
    + destruct (isdigit k); [|injection E as <-; discriminate].
      destruct (nth_error l (int_of k)); [eauto|injection E as <-; discriminate].
    + destruct (isdigit k); [|injection E as <-; discriminate].
      destruct (nth_error l (int_of k)); [eauto|injection E as <-; discriminate].
Qed.
End GetSetProofs.
