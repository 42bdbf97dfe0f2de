(** Properties C90 and C91: saving and loading scalers. *)
From Verif Require Import Base BaseLemmas TreeUtil TreeSpec NonSeqSpec NonSeqProofs Serial SerialSpec SerialProofs ScalerProofs ScalerFile ScalerFileSpec ScalerFileProofs ScalerFileMain.
Local Open Scope string_scope.
Local Open Scope list_scope.
Local Open Scope nat_scope.

Section Props.
Context {N : Type} (ofnat : nat -> N) {D : Type} (kern : scls -> bool -> list (py N) -> D -> list (py N) -> result D).

(** C90: every scaler comes back from its serialised dictionary, with the same
    attributes, and transforms and inverts all data as before. *)
Theorem C90_memory s : proper s -> indifferent ofnat kern ->
  exists s', deser (cls_of s) (ser s) = Ok s' /\ same_scaler ofnat s s' /\
             forall inv X, apply kern inv s' X = apply kern inv s X.
Proof.
  intros P I. destruct (memory_ok ofnat s P) as (s' & E & S). exists s'. split; [exact E|]. split; [exact S|].
  intros inv X. symmetry. eapply apply_same; eauto.
Qed.

(** A scaler that was not fitted refuses all data with a RuntimeError, and after
    saving and loading still does. *)
Definition unfitted (s : sobj N) (inv : bool) : Prop :=
  match s with
  | Standard mean scale => mean = NoneT \/ scale = NoneT
  | MinMax _ _ dmin dmax => dmin = NoneT \/ dmax = NoneT
  | Robust _ _ _ _ _ scale median => scale = NoneT \/ median = NoneT
  | OneHot uniq shapes => uniq = NoneT \/ (inv = true /\ shapes = NoneT)
  | Mixed _ => False
  end.
Theorem C90_unfitted s inv X : unfitted s inv -> apply kern inv s X = Err RuntimeError.
Proof.
  destruct s; cbn [unfitted]; intros H; try (destruct H as [->| ->]); try (destruct H as [->|[-> ->]]); cbn [apply is_none orb andb]; rewrite ?orb_true_r; try reflexivity. destruct H.
Qed.

(** C91: the same through a file, if the outermost structure of the data is a
    dictionary or the data are one array (and the bounds are numbers, None or
    dictionaries). *)
Theorem C91_file s : proper s -> in_file ofnat s -> indifferent ofnat kern ->
  exists s', refile ofnat s = Ok s' /\ same_scaler ofnat s s' /\ forall inv X, apply kern inv s' X = apply kern inv s X.
Proof.
  intros P I IN. destruct (file_ok ofnat s P I) as (s' & E & S). exists s'. split; [exact E|]. split; [exact S|].
  intros inv X. symmetry. eapply apply_same; eauto.
Qed.

(** ... but a scaler fitted to a list or tuple of arrays never does: saving it
    fails, or the loaded one refuses everything with a structure. *)
Definition arrays (tup : bool) (l : list (arr N)) : py N := (if tup then Tup else Lst) (map (fun a => Leaf (AArr a)) l).
Lemma arrays_asarray tup l x : asarray ofnat (arrays tup l) = Ok x -> exists k s d, x = Numeric (mk_arr (k :: s) d).
Proof.
  assert (A : all_numbers ofnat (flat_map atoms (map (fun a => Leaf (AArr a)) l)) = Some (flat_map a_data l)).
  { induction l as [|a l IH]; cbn; [reflexivity|]. rewrite IH. reflexivity. }
  assert (G : forall tup s, nshape (arrays tup l) = Some s -> exists k s', s = k :: s').
  { intros tu s. unfold arrays. destruct tu; cbn [nshape].
    all: destruct ((fix go l := match l with [] => Some [] | x :: l' => match nshape x, go l' with Some s, Some ss => Some (s :: ss) | _, _ => None end end) (map (fun a => Leaf (AArr a)) l)) as [[|s0 ss]|]; try discriminate.
    all: try (intros H; injection H as <-; eauto; fail).
    all: destruct (forallb _ ss); [|discriminate]; intros H; injection H as <-; eauto. }
  intros E. assert (E' : match nshape (arrays tup l) with None => Err ValueError | Some s => Ok (Numeric (mk_arr s (flat_map a_data l))) end = Ok x).
  { destruct tup; unfold arrays, asarray in *; cbn [atoms] in E; rewrite A in E; exact E. }
  destruct (nshape (arrays tup l)) as [s|] eqn:Es; [|discriminate]. injection E' as <-. destruct (G _ _ Es) as (k & s' & -> ). eauto.
Qed.
Lemma numeric_leaf k s d : from_npy (Numeric (@mk_arr N (k :: s) d)) = Ok (Leaf (AArr (mk_arr (k :: s) d))).
Proof. reflexivity. Qed.
Theorem C91_list_never t1 t2 l1 l2 s' : refile ofnat (Standard (arrays t1 l1) (arrays t2 l2)) = Ok s' ->
  forall inv X, container X = true -> apply kern inv s' X = Err ValueError.
Proof.
  unfold refile, save_file, load_file, deser. cbn [cls_of ser map fst snd seq_dict].
  destruct (asarray ofnat (arrays t1 l1)) as [x1|] eqn:E1; cbn [rbind]; [|discriminate]. destruct (asarray ofnat (arrays t2 l2)) as [x2|] eqn:E2; cbn [rbind]; [|discriminate].
  destruct (arrays_asarray _ _ _ E1) as (k1 & s1 & d1 & -> ). destruct (arrays_asarray _ _ _ E2) as (k2 & s2 & d2 & -> ).
  cbn [map fst snd seq_dict]. rewrite !numeric_leaf. cbn [rbind seq_dict]. rewrite walk_simple by discriminate. cbn. intros H. injection H as <-.
  intros inv X HX. destruct X as [x| |d|l|l]; try discriminate HX; reflexivity.
Qed.
(** A MixedScaler whose scalers are in a list, all of them present, can be saved
    but not loaded. *)
Theorem C91_mixed_list_never c l f : (c = Lst \/ c = Tup) -> l <> [] -> save_file ofnat (Mixed (c (map Leaf l))) = Ok f -> load_file CMixed f = Err TypeError.
Proof.
  intros Hc Hl. assert (ST : forall (g : sobj N -> string) x, asarray ofnat (jpy (fun s => Leaf (AStr (g s))) (c (map Leaf l))) = Ok x -> x = Strings).
  { intros g x. assert (A : all_numbers ofnat (flat_map atoms (map (jpy (fun s => Leaf (AStr (g s)))) (map Leaf l))) = None) by (destruct l; [contradiction|reflexivity]).
    assert (F : forallb is_string (flat_map atoms (map (jpy (N := N) (fun s => Leaf (AStr (g s)))) (map Leaf l))) = true) by (clear; induction l; auto).
    destruct Hc as [ -> | -> ]; unfold asarray; cbn [jpy atoms]; destruct (nshape _); try discriminate; rewrite A, F; intros H; injection H as <-; reflexivity. }
  unfold save_file, load_file. cbn [ser map fst snd seq_dict].
  destruct (asarray ofnat (jpy (fun s => Dict (ser s)) _)) as [x1|] eqn:E1; cbn [rbind]; [|discriminate].
  destruct (asarray ofnat (jpy (fun s => Leaf (AStr (cls_module (cls_of s) ++ "." ++ cls_name (cls_of s)))) _)) as [x2|] eqn:E2; cbn [rbind]; [|discriminate].
  destruct (asarray ofnat (jpy (fun s => Leaf (AStr (cls_name (cls_of s)))) _)) as [x3|] eqn:E3; cbn [rbind]; [|discriminate].
  destruct (asarray ofnat (jpy (fun s => Leaf (AStr (cls_module (cls_of s)))) _)) as [x4|] eqn:E4; cbn [rbind]; [|discriminate].
  apply ST in E2. apply ST in E3. apply ST in E4. subst. intros H. injection H as <-. cbn [map fst snd seq_dict].
  assert (O : exists v, from_npy x1 = Ok v).
  { clear -E1 Hc Hl. assert (A : exists a ls, map (jpy (N := N) (fun s => Dict (ser s))) (map Leaf l) = a :: ls /\ exists d, a = Dict d) by (destruct l; [contradiction|]; cbn; eauto).
    destruct Hc as [ -> | -> ]; unfold asarray in E1; cbn [jpy atoms] in E1; destruct (nshape _); try discriminate E1; destruct A as (a & ls & A & d & -> ); rewrite A in E1; cbn in E1; injection E1 as <-.
    all: destruct (jm_id _ _ _ (trel_refl (Lst (Dict d :: map relist ls)))) as (v & Ev & _); exists v; exact Ev. }
  destruct O as (v & -> ). cbn [rbind from_npy]. reflexivity.
Qed.
(** A MinMaxScaler with one bound per feature (arrays) can be saved but not
    loaded. *)
Theorem C91_bounds_never a b dmin dmax k s f : a_shape a = k :: s -> a_shape b = k :: s ->
  save_file ofnat (MinMax (Leaf (AArr a)) (Leaf (AArr b)) (Leaf (AArr dmin)) (Leaf (AArr dmax))) = Ok f -> load_file CMinMax f = Err TypeError.
Proof.
  intros Ha Hb. unfold save_file, load_file. cbn [ser map fst snd seq_dict asarray nshape atoms flat_map app]. rewrite Ha, Hb. cbn [forallb].
  destruct (list_eq_dec Nat.eq_dec (k :: s) (k :: s)) as [_|ne]; [|contradiction]. cbn [andb all_numbers numbers]. cbn [rbind]. intros H. injection H as <-.
  cbn [map fst snd seq_dict]. rewrite numeric_leaf. cbn [rbind].
  assert (O : forall c : arr N, exists v, from_npy (Numeric c) = Ok v) by (intros [sh da]; cbn; destruct sh as [|k0 sh]; [destruct da as [|x [|y da]]|]; eauto).
  destruct (O dmin) as (v1 & -> ). destruct (O dmax) as (v2 & -> ). cbn [rbind]. unfold deser. rewrite walk_simple by discriminate. reflexivity.
Qed.
End Props.

(** An array inside a list of objects comes back as nested lists of its numbers,
    in order ([tolist()]). *)
Lemma chunks {X} w n : forall l : list X, flat_map (fun i => firstn w (skipn (i * w) l)) (seq 0 n) = firstn (n * w) l.
Proof.
  induction n as [|n IH]; intros l; [reflexivity|]. rewrite seq_S, flat_map_app, IH. cbn [flat_map Nat.add]. rewrite app_nil_r.
  replace (S n * w) with (n * w + w) by lia. rewrite <- (firstn_skipn (n * w) l) at 3. rewrite firstn_app.
  destruct (Nat.le_gt_cases (n * w) (length l)) as [L|L].
  - rewrite firstn_length_le by exact L. rewrite firstn_firstn, Nat.min_r by lia. f_equal. f_equal. lia.
  - rewrite (skipn_all2 l) by lia. rewrite !firstn_nil, !app_nil_r. rewrite firstn_firstn, Nat.min_r by lia. reflexivity.
Qed.
Theorem C91_array_in_list {N} : forall s (l : list N), length l = fold_right Nat.mul 1 s ->
  atoms (nest s l) = map (fun x => Leaf (ANum x)) l.
Proof.
  induction s as [|n s IH]; intros l E; cbn [nest fold_right] in *.
  - destruct l as [|x [|y l]]; try discriminate. reflexivity.
  - set (w := fold_right Nat.mul 1 s) in *. cbn [atoms].
    assert (H : forall k, k <= n -> flat_map atoms (map (fun i => nest s (firstn w (skipn (i * w) l))) (seq 0 k)) = map (fun x => Leaf (ANum x)) (firstn (k * w) l)).
    { intros k Hk. rewrite <- chunks. rewrite flat_map_concat_map, map_map, (flat_map_concat_map _ (seq 0 k)), concat_map, map_map. f_equal.
      apply map_ext_in. intros i Hi. apply in_seq in Hi. apply IH. rewrite firstn_length_le; [reflexivity|]. rewrite skipn_length. nia. }
    rewrite (H n (le_n n)). rewrite firstn_all2 by lia. reflexivity.
Qed.
Example C91_array_in_list_ex : relist (Lst [Leaf (AArr (mk_arr [2; 3] [1; 2; 3; 4; 5; 6])); Leaf (AStr "a")]) =
  Lst [Lst [Lst [Leaf (ANum 1); Leaf (ANum 2); Leaf (ANum 3)]; Lst [Leaf (ANum 4); Leaf (ANum 5); Leaf (ANum 6)]]; Leaf (AStr "a")] /\
  asarray (fun n => n) (Lst [Leaf (ABool true); Leaf (AInt 4)]) = Ok (Numeric (mk_arr [2] [1; 4])).
Proof. split; reflexivity. Qed.
Print Assumptions C91_array_in_list.

(* ------------------------------------------------------------------ *)
(** Examples: numbers are natural numbers; a scaler subtracts the first number it
    finds (or adds it when inverting). *)
Definition nums (v : py nat) : list nat :=
  match v with Leaf (ANum x) => [x] | Leaf (AInt n) => [n] | Leaf (AArr a) => a_data a | _ => [] end.
Definition vals (v : py nat) : list nat := match v with Tup l => flat_map nums l | _ => nums v end.
Definition shift (c : scls) (inv : bool) (ps : list (py nat)) (x : nat) (vs : list (py nat)) : result nat :=
  match map vals vs with
  | (m :: _) :: _ => Ok (if inv then x + m else x - m)
  | _ => Err ValueError
  end.
Lemma same_nums v w : same_value (fun n => n) v w -> nums v = nums w.
Proof.
  intros T. inversion T as [a b HR| |? m F|? m F|? e e' Pe F]; subst; auto. destruct HR as [ -> |(x & Ha & Hb)]; [reflexivity|].
  inversion Ha; inversion Hb; subst; cbn in *; congruence.
Qed.
Lemma same_vals v w : same_leaf (fun n => n) v w -> vals v = vals w.
Proof.
  intros [T|(l & -> & ->)].
  - pose proof (same_nums _ _ T) as H. inversion T as [a b HR| |? m F|? m F|? e e' Pe F]; subst; auto.
    cbn. clear -F. induction F as [|x y l m Hxy F IH]; cbn; [reflexivity|]. rewrite IH. f_equal. apply same_nums. exact Hxy.
  - unfold shape_tuple, shape_array. cbn. rewrite map_id. induction l as [|n l IH]; cbn; congruence.
Qed.
Lemma shift_indifferent : indifferent (fun n => n) shift.
Proof.
  intros c inv ps ps' x vs vs' _ F. unfold shift. replace (map vals vs') with (map vals vs); [reflexivity|].
  induction F as [|v w vs vs' H F IH]; cbn; [reflexivity|]. rewrite IH. f_equal. apply same_vals. exact H.
Qed.

Definition A1 (l : list nat) : py nat := Leaf (AArr (mk_arr [length l] l)).
(** A scaler for a dictionary with an unscaled entry and nested scalers, one of
    them for a list. *)
Definition mixed : sobj nat :=
  Mixed (Dict [("x", Leaf (Standard (Lst [A1 [3]; A1 [4]]) (Lst [A1 [1]; A1 [1]])));
               ("c", NoneT);
               ("a", Leaf (MinMax (Leaf (ANum 0)) (Leaf (AInt 1)) (A1 [2]) (A1 [5])))]).
Definition mixed_data : tree nat := Dict [("a", Leaf 10); ("c", Leaf 20); ("x", Lst [Leaf 30; Leaf 40])].
Example C90_unfitted_ex : unfitted (Standard (NoneT : py nat) NoneT) false /\ apply shift false (Standard NoneT NoneT) mixed_data = Err RuntimeError /\
  apply shift false (OneHot (A1 [2]) NoneT) (Leaf 5) = Ok (Leaf 3) /\ apply shift true (OneHot (A1 [2]) NoneT) (Leaf 5) = Err RuntimeError.
Proof. split; [left; reflexivity|]. vm_compute. auto. Qed.
Example C90_ex_proper : proper mixed /\ in_file (fun n => n) mixed.
Proof.
  split; [|exact I]. unfold mixed, A1. constructor.
  - constructor; [repeat constructor; cbn; intuition discriminate|repeat constructor].
  - intros s H. inversion H as [|? k t ? Hin Hl| |]; subst. destruct Hin as [E|[E|[E|[]]]]; injection E as <- <-; inversion Hl; subst; repeat constructor.
Qed.
Example C90_ex : apply shift false mixed mixed_data = Ok (Dict [("a", Leaf 8); ("c", Leaf 20); ("x", Lst [Leaf 27; Leaf 36])]) /\
  match refile (fun n => n) mixed with
  | Ok s' => apply shift false s' mixed_data = apply shift false mixed mixed_data /\ apply shift true s' (Dict [("a", Leaf 8); ("c", Leaf 20); ("x", Lst [Leaf 27; Leaf 36])]) = Ok mixed_data
  | Err _ => False
  end.
Proof. vm_compute. repeat split. Qed.
(** One array: the feature range comes back as arrays without axes, the shape of
    a sample as an array. *)
Example C91_ex_one : refile (fun n => n) (MinMax (Leaf (ANum 0)) (Leaf (AInt 1)) (A1 [2; 3]) (A1 [5; 6])) =
    Ok (MinMax (Leaf (AArr (mk_arr [] [0]))) (Leaf (AArr (mk_arr [] [1]))) (A1 [2; 3]) (A1 [5; 6])) /\
  refile (fun n => n) (OneHot (Leaf (AArr (mk_arr [2; 1] [7; 8]))) (shape_tuple [1])) =
    Ok (OneHot (Leaf (AArr (mk_arr [2; 1] [7; 8]))) (shape_array (fun n => n) [1])) /\
  in_file (fun n => n) (OneHot (Leaf (AArr (mk_arr [2; 1] [7; 8]))) (shape_tuple [1])).
Proof.
  split; [reflexivity|]. split; [reflexivity|]. split; [split; [exact I|]; intros a H; injection H as <-; reflexivity|].
  right. do 2 eexists. split; [reflexivity|]. split; [discriminate|reflexivity].
Qed.

(** The claim without the restriction to dictionaries is false of the code. *)
Definition C91_file_always : Prop := forall (s : sobj nat) (X Y : tree nat), proper s ->
  apply shift false s X = Ok Y -> exists s', refile (fun n => n) s = Ok s' /\ apply shift false s' X = Ok Y.
Theorem C91_file_refuted : exists (s : sobj nat) (X Y : tree nat) s', proper s /\ apply shift false s X = Ok Y /\
  refile (fun n => n) s = Ok s' /\ apply shift false s' X = Err ValueError.
Proof.
  exists (Standard (Lst [A1 [3]; A1 [4]]) (Lst [A1 [1]; A1 [1]])), (Lst [Leaf 30; Leaf 40]), (Lst [Leaf 27; Leaf 36]).
  eexists. split; [repeat constructor|]. split; [reflexivity|]. split; reflexivity.
Qed.
(** ... arrays of different sizes cannot even be saved, *)
Theorem C91_ragged_refuted : exists (s : sobj nat) (X Y : tree nat), proper s /\ apply shift false s X = Ok Y /\
  save_file (fun n => n) s = Err ValueError.
Proof.
  exists (Standard (Lst [A1 [3]; A1 [4; 5]]) (Lst [A1 [1]; A1 [1; 1]])), (Lst [Leaf 30; Leaf 40]), (Lst [Leaf 27; Leaf 36]).
  split; [repeat constructor|]. split; reflexivity.
Qed.
(** ... and neither lists of scalers nor bounds per feature come back. *)
Theorem C91_mixed_refuted : exists (s : sobj nat) (X Y : tree nat) f, proper s /\ apply shift false s X = Ok Y /\
  save_file (fun n => n) s = Ok f /\ load_file CMixed f = Err TypeError.
Proof.
  exists (Mixed (Lst [Leaf (Standard (A1 [3]) (A1 [1])); Leaf (Standard (A1 [4]) (A1 [1]))])), (Lst [Leaf 30; Leaf 40]), (Lst [Leaf 27; Leaf 36]).
  eexists. split; [|split; [reflexivity|split; reflexivity]].
  constructor; [repeat constructor|]. intros s H. inversion H as [| |? t ? Hin Hl|]; subst. destruct Hin as [ <- |[ <- |[]]]; inversion Hl; subst; repeat constructor.
Qed.
Theorem C91_bounds_refuted : exists (s : sobj nat) (X Y : tree nat) f, proper s /\ apply shift false s X = Ok Y /\
  save_file (fun n => n) s = Ok f /\ load_file CMinMax f = Err TypeError.
Proof.
  exists (MinMax (A1 [0; 0]) (A1 [1; 2]) (A1 [2; 3]) (A1 [5; 6])), (Leaf 30), (Leaf 28). eexists. split; [repeat constructor|]. split; [reflexivity|]. split; reflexivity.
Qed.
(** A tuple of scalers comes back as a list, if it has a None entry. *)
Theorem C91_tuple_refuted : exists (s s' : sobj nat) (X Y : tree nat), proper s /\ apply shift false s X = Ok Y /\
  refile (fun n => n) s = Ok s' /\ apply shift false s' X = Err ValueError.
Proof.
  exists (Mixed (Tup [Leaf (Standard (A1 [3]) (A1 [1])); NoneT])). eexists. exists (Tup [Leaf 30; Leaf 40]), (Tup [Leaf 27; Leaf 40]).
  split; [|split; [reflexivity|split; reflexivity]].
  constructor; [repeat constructor|]. intros s H. inversion H as [| | |? t ? Hin Hl]; subst. destruct Hin as [ <- |[ <- |[]]]; inversion Hl; subst; repeat constructor.
Qed.

Print Assumptions C90_memory.
Print Assumptions C91_file.
Print Assumptions C91_list_never.
Print Assumptions C91_mixed_list_never.
Print Assumptions C91_bounds_never.
Print Assumptions C91_file_refuted.
