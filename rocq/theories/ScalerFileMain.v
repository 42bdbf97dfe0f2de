From Coq Require Import Permutation.
From Verif Require Import Base BaseLemmas TreeUtil TreeSpec NonSeqSpec NonSeqProofs MutableProofs Serial SerialSpec SerialProofs ScalerProofs ReshapeProofs ReshapeMain ScalerFile ScalerFileSpec ScalerFileProofs.
Local Open Scope string_scope.
Local Open Scope list_scope.
Local Open Scope nat_scope.

Section Main.
Context {N : Type} (ofnat : nat -> N).
Notation same_value := (same_value ofnat).

Lemma class_name c : @class_of N (Leaf (AStr (cls_name c))) (Leaf (AStr (cls_module c))) = Ok c.
Proof. destruct c; reflexivity. Qed.

Lemma need_look (d d1 : list (string * py N)) k : trel eq (Dict d) (Dict d1) -> NoDup (dkeys d) ->
  match dget d k with Some v => exists w, need d1 k = Ok w /\ trel eq v w | None => True end.
Proof. intros T ND. destruct (dget d k) eqn:E; [|exact I]. eapply need_rel; eauto. Qed.
Ltac field d1 T k := let w := fresh "w" in let E := fresh "E" in let H := fresh "H" in
  pose proof (need_look _ d1 k T ltac:(repeat constructor; cbn; intuition discriminate)) as H;
  cbn [dget String.eqb Ascii.eqb Bool.eqb] in H; destruct H as (w & E & H).

Definition look_feature (d : list (string * py N)) : result (tree (sobj N)) :=
  match dget d "feature_scalers" with
  | None | Some NoneT => Ok (Leaf (Mixed NoneT))
  | Some x => let* t := walk x (getd d "scaler_typenames") (getd d "scaler_modules") in Ok (Leaf (Mixed t))
  end.
Lemma walk_mixed d : walk (Dict d) (Leaf (AStr (cls_name CMixed))) (Leaf (AStr (cls_module CMixed))) = look_feature d.
Proof.
  unfold look_feature. cbn [walk container]. rewrite class_name. cbn [rbind].
  generalize (getd d "scaler_typenames"), (getd d "scaler_modules"). intros n m.
  induction d as [|[k x] d IH]; cbn [dget]; [reflexivity|]. rewrite (String.eqb_sym "feature_scalers" k).
  destruct (String.eqb k "feature_scalers"); [destruct x; reflexivity|exact IH].
Qed.
Lemma walk_simple c d : c <> CMixed -> walk (Dict d) (Leaf (AStr (cls_name c))) (Leaf (AStr (cls_module c))) = let* o := simple c d in Ok (Leaf o : tree (sobj N)).
Proof. intros H. cbn [walk container]. rewrite class_name. destruct c; try reflexivity. contradiction. Qed.

Lemma revives_all s : proper s -> revives ofnat s.
Proof.
  induction 1 as [m s W1 W2|l h a b W1 W2 W3 W4|l h c s e x m W1 W2 W3 W4 W5 W6 W7 N1 N2 N3|u o W1 W2|t W HP IH]; intros d1 T.
  - cbn [ser cls_of] in *. rewrite walk_simple by discriminate. cbn [simple].
    field d1 T "mean_". field d1 T "scale_". rewrite E, E0. cbn [rbind]. eexists. split; [reflexivity|constructor; apply same_eq; assumption].
  - cbn [ser cls_of] in *. rewrite walk_simple by discriminate. cbn [simple].
    field d1 T "feature_range". field d1 T "data_min_". field d1 T "data_max_". rewrite E, E0, E1. cbn [rbind].
    inversion H as [| | |? m F|]; subst. inversion F as [|? l1 ? m1 F1 F2]; subst. inversion F2 as [|? h1 ? m2 F3 F4]; subst. inversion F4; subst.
    cbn. eexists. split; [reflexivity|constructor; apply same_eq; assumption].
  - cbn [ser cls_of] in *. rewrite walk_simple by discriminate. cbn [simple].
    field d1 T "quantile_range". field d1 T "with_centering". field d1 T "with_scaling". field d1 T "eps". field d1 T "scale_". field d1 T "median_".
    rewrite E, E0, E1, E2, E3, E4. cbn [rbind].
    inversion H as [| | |? q F|]; subst. inversion F as [|? l1 ? m1 F1 F2]; subst. inversion F2 as [|? h1 ? m2 F3 F4]; subst. inversion F4; subst.
    cbn [unpack2 rbind]. rewrite (switch_rel _ _ N1 H0), (switch_rel _ _ N2 H1), (switch_rel _ _ N3 H2). cbn.
    eexists. split; [reflexivity|constructor; apply same_eq; assumption].
  - cbn [ser cls_of] in *. rewrite walk_simple by discriminate. cbn [simple].
    field d1 T "unique_vals_". field d1 T "original_shapes_". rewrite E, E0. cbn [rbind]. eexists. split; [reflexivity|constructor; apply same_eq; assumption].
  - cbn [ser cls_of] in *. rewrite walk_mixed. unfold look_feature, getd.
    field d1 T "feature_scalers". field d1 T "scaler_typenames". field d1 T "scaler_modules". unfold need in E, E0, E1.
    destruct (dget d1 "feature_scalers") as [f1|]; [|discriminate]. destruct (dget d1 "scaler_typenames") as [n1|]; [|discriminate]. destruct (dget d1 "scaler_modules") as [m1|]; [|discriminate].
    injection E as ->. injection E0 as ->. injection E1 as ->.
    destruct (walk_ok ofnat t W IH w w0 w1 H H0 H1) as (t' & Ew & Tt).
    destruct t as [s| |d|l|l]; cbn [jpy] in H; inversion H; subst.
    2: { inversion Tt; subst. eexists. split; [reflexivity|constructor; exact Tt]. }
    all: rewrite Ew; cbn [rbind]; eexists; split; [reflexivity|constructor; exact Tt].
Qed.

Theorem memory_ok s : proper s -> exists s', deser (cls_of s) (ser s) = Ok s' /\ same_scaler ofnat s s'.
Proof.
  intros P. destruct (revives_all s P (ser s) (trel_refl _)) as (s' & E & S). exists s'. unfold deser. rewrite E. split; [reflexivity|exact S].
Qed.

(* ------------------------------------------------------------------ *)
(** * Files *)
Lemma entry_ok v : entry v -> exists x v', asarray ofnat v = Ok x /\ from_npy x = Ok v' /\ same_value v v'.
Proof.
  intros [O A]. assert (J : exists v', jmapM (fun a => Ok a) v = Ok v' /\ same_value v v').
  { destruct (jm_id _ _ _ (trel_refl v)) as (v' & E & T). exists v'. split; [exact E|apply same_eq; exact T]. }
  destruct J as (v' & E & S). destruct v as [a| |d|l|l]; cbn in O; try contradiction.
  - destruct a as [b|n|x|s|a]; try (do 2 eexists; split; [reflexivity|split; [exact E|exact S]]).
    specialize (A a eq_refl). cbn [asarray]. exists (Numeric a). cbn [from_npy]. destruct a as [sh da]; cbn in *.
    destruct sh as [|k sh]; cbn in A.
    + destruct da as [|x [|y da]]; try discriminate A. eexists. split; [reflexivity|]. split; [reflexivity|]. constructor. right. exists x. split; constructor.
    + eexists. split; [reflexivity|]. split; [reflexivity|]. apply same_refl.
  - do 2 eexists; split; [reflexivity|split; [exact E|exact S]].
  - do 2 eexists; split; [reflexivity|split; [exact E|exact S]].
Qed.
Lemma entry_no_array v v' : no_array v -> entry v -> forall x, asarray ofnat v = Ok x -> from_npy x = Ok v' -> switch v' = Ok v'.
Proof.
  intros NA [O A] x Ex E. destruct v as [a| |d|l|l]; cbn in O; try contradiction.
  - destruct a as [b|n|y|s|a]; cbn in Ex; try (injection Ex as <-; cbn in E; injection E as <-; reflexivity). exfalso. eapply NA; reflexivity.
  - cbn in Ex. injection Ex as <-. cbn in E. injection E as <-. reflexivity.
  - cbn in Ex. injection Ex as <-. cbn [from_npy] in E. rewrite jmapM_dct in E. destruct (jm_dict _ d); [|discriminate]. injection E as <-. reflexivity.
Qed.

(** A pair of bounds. *)
Lemma bound_item v : bound ofnat v -> nshape v = Some [] /\ atoms v = [v] /\ is_string v = false /\
  ((exists a x, v = Leaf a /\ number ofnat a x /\ numbers ofnat v = Some [x]) \/ numbers ofnat v = None) /\
  exists v', jmapM (fun a => Ok a) (relist v) = Ok v' /\ same_value v v'.
Proof.
  intros [ -> |[[d -> ]|(a & x & -> & Nx)]].
  - repeat split; auto. exists NoneT. split; [reflexivity|constructor].
  - repeat split; auto. destruct (jm_id _ _ _ (trel_refl (Dict d : py N))) as (v' & E & T). exists v'. split; [exact E|apply same_eq; exact T].
  - destruct Nx; (repeat split; auto; [left; do 2 eexists; repeat split; constructor|]); eexists; (split; [reflexivity|]); constructor; try (left; reflexivity).
    right. eexists. split; constructor.
Qed.
Lemma pair_ok lo hi : bound ofnat lo -> bound ofnat hi ->
  exists x r lo' hi', asarray ofnat (Tup [lo; hi]) = Ok x /\ from_npy x = Ok r /\ unpack2 r = Ok (lo', hi') /\ same_value lo lo' /\ same_value hi hi'.
Proof.
  intros B1 B2. destruct (bound_item lo B1) as (S1 & A1 & T1 & C1 & v1 & J1 & R1). destruct (bound_item hi B2) as (S2 & A2 & T2 & C2 & v2 & J2 & R2).
  unfold asarray. cbn [nshape atoms flat_map]. rewrite S1, S2, A1, A2. cbn [app forallb]. destruct (list_eq_dec Nat.eq_dec [] []) as [_|ne]; [|contradiction]. cbn [andb all_numbers].
  destruct C1 as [(a & x & -> & Nx & E1)|E1]; [destruct C2 as [(b & y & -> & Ny & E2)|E2]|].
  - rewrite E1, E2. cbn [app length]. do 4 eexists. split; [reflexivity|]. split; [reflexivity|]. split; [reflexivity|].
    split; constructor; right; [exists x|exists y]; (split; [assumption|constructor]).
  - rewrite E1, E2. rewrite T1. cbn [andb relist map]. exists (Objects (Lst [relist (Leaf a); relist hi])), (Lst [v1; v2]), v1, v2. split; [reflexivity|].
    split; [|split; [reflexivity|split; assumption]]. cbn [from_npy]. rewrite jmapM_lst. cbn [jm_list]. rewrite J1. cbn [rbind]. rewrite J2. reflexivity.
  - rewrite E1, T1. cbn [andb relist map]. exists (Objects (Lst [relist lo; relist hi])), (Lst [v1; v2]), v1, v2. split; [reflexivity|].
    split; [|split; [reflexivity|split; assumption]]. cbn [from_npy]. rewrite jmapM_lst. cbn [jm_list]. rewrite J1. cbn [rbind]. rewrite J2. reflexivity.
Qed.

(** The shape of a sample. *)
Lemma shape_go l : (fix go (l : list (py N)) := match l with [] => Some [] | x :: l' => match nshape x, go l' with Some s, Some ss => Some (s :: ss) | _, _ => None end end)
    (map (fun n => Leaf (AInt n)) l) = Some (map (fun _ => []) l).
Proof. induction l as [|n l IH]; cbn; [reflexivity|]. rewrite IH. reflexivity. Qed.
Lemma shape_entry l : exists x, asarray ofnat (shape_tuple l) = Ok x /\ from_npy x = Ok (shape_array ofnat l).
Proof.
  exists (Numeric (mk_arr [length l] (map ofnat l))). split; [|reflexivity]. unfold shape_tuple, asarray. cbn [nshape]. rewrite shape_go.
  assert (E1 : match map (fun _ : nat => @nil nat) l with [] => Some [0] | s :: ss => if forallb (fun s' => if list_eq_dec Nat.eq_dec s s' then true else false) ss then Some (length (map (fun n => Leaf (@AInt N n)) l) :: s) else None end = Some [length l]).
  { rewrite map_length. destruct l as [|n l]; [reflexivity|]. cbn [map]. replace (forallb _ _) with true; [reflexivity|]. symmetry. apply forallb_forall. intros s Hs. apply in_map_iff in Hs as (k & <- & _).
    destruct (list_eq_dec Nat.eq_dec [] []) as [_|ne]; [reflexivity|contradiction]. }
  rewrite E1. cbn [atoms]. assert (E2 : flat_map atoms (map (fun n => Leaf (@AInt N n)) l) = map (fun n => Leaf (AInt n)) l) by (clear; induction l; cbn; congruence).
  rewrite E2. assert (E3 : all_numbers ofnat (map (fun n => Leaf (AInt n)) l) = Some (map ofnat l)) by (clear; induction l as [|n l IH]; cbn; [reflexivity|]; rewrite IH; reflexivity).
  rewrite E3. reflexivity.
Qed.

Lemma objects_entry (v : py N) : one_or_dict v -> (forall a, v <> Leaf (AArr a)) -> exists v', asarray ofnat v = Ok (Objects v) /\ from_npy (Objects v) = Ok v' /\ trel eq v v'.
Proof.
  intros O A. destruct (jm_id _ _ _ (trel_refl v)) as (v' & E & T). exists v'.
  destruct v as [[b|n|x|s|a]| |d|l|l]; cbn in O; try contradiction; try (split; [reflexivity|split; [exact E|exact T]]). exfalso. eapply A; reflexivity.
Qed.

Theorem file_ok s : proper s -> in_file ofnat s -> exists s', refile ofnat s = Ok s' /\ same_scaler ofnat s s'.
Proof.
  intros P I. unfold refile, save_file, load_file, deser. destruct P as [m s W1 W2|l h a b W1 W2 W3 W4|l h c s e x m W1 W2 W3 W4 W5 W6 W7 N1 N2 N3|u o W1 W2|t W HP]; cbn [in_file] in I; cbn [cls_of ser map fst snd].
  - destruct I as [I1 I2]. destruct (entry_ok m I1) as (x1 & v1 & A1 & F1 & S1). destruct (entry_ok s I2) as (x2 & v2 & A2 & F2 & S2).
    rewrite A1, A2. cbn [seq_dict rbind map fst snd]. rewrite F1, F2. cbn [seq_dict rbind]. rewrite walk_simple by discriminate. cbn. eexists. split; [reflexivity|constructor; assumption].
  - destruct I as (I1 & I2 & I3 & I4). destruct (pair_ok l h I1 I2) as (x0 & r & l' & h' & A0 & F0 & U & S1 & S2). destruct (entry_ok a I3) as (x1 & v1 & A1 & F1 & S3). destruct (entry_ok b I4) as (x2 & v2 & A2 & F2 & S4).
    rewrite A0, A1, A2. cbn [seq_dict rbind map fst snd]. rewrite F0, F1, F2. cbn [seq_dict rbind]. rewrite walk_simple by discriminate. cbn - [unpack2]. rewrite U. cbn. eexists. split; [reflexivity|constructor; assumption].
  - destruct I as (I1 & I2 & I3 & I4 & I5 & I6 & I7). destruct (pair_ok l h I1 I2) as (x0 & r & l' & h' & A0 & F0 & U & S1 & S2).
    destruct (entry_ok c I3) as (x3 & v3 & A3 & F3 & S3). destruct (entry_ok s I4) as (x4 & v4 & A4 & F4 & S4). destruct (entry_ok e I5) as (x5 & v5 & A5 & F5 & S5).
    destruct (entry_ok x I6) as (x6 & v6 & A6 & F6 & S6). destruct (entry_ok m I7) as (x7 & v7 & A7 & F7 & S7).
    rewrite A0, A3, A4, A5, A6, A7. cbn [seq_dict rbind map fst snd]. rewrite F0, F3, F4, F5, F6, F7. cbn [seq_dict rbind]. rewrite walk_simple by discriminate. cbn - [unpack2 switch]. rewrite U. cbn [rbind].
    rewrite (entry_no_array c v3 N1 I3 x3 A3 F3), (entry_no_array s v4 N2 I4 x4 A4 F4), (entry_no_array e v5 N3 I5 x5 A5 F5). cbn. eexists. split; [reflexivity|constructor; assumption].
  - destruct I as [I1 I2]. destruct (entry_ok u I1) as (x1 & v1 & A1 & F1 & S1). destruct I2 as [I2|(a & sh & -> & Hs & -> )].
    + destruct (entry_ok o I2) as (x2 & v2 & A2 & F2 & S2).
      rewrite A1, A2. cbn [seq_dict rbind map fst snd]. rewrite F1, F2. cbn [seq_dict rbind]. rewrite walk_simple by discriminate. cbn. eexists. split; [reflexivity|constructor; assumption].
    + destruct (shape_entry sh) as (x2 & A2 & F2). rewrite A2. cbn [asarray seq_dict rbind map fst snd]. rewrite F2. cbn [from_npy]. destruct a as [[|k s] da]; cbn in Hs; [contradiction|].
      cbn [a_shape a_data seq_dict rbind]. rewrite walk_simple by discriminate. cbn [simple need dget rbind String.eqb Ascii.eqb Bool.eqb].
      eexists. split; [reflexivity|]. apply ss_onehot1. exists sh. split; reflexivity.
  - assert (Q : forall f : sobj N -> py N, (forall s, one_or_dict (f s)) -> (forall s a, f s <> Leaf (AArr a)) -> one_or_dict (jpy f t) /\ forall a, jpy f t <> Leaf (AArr a)).
    { intros f H1 H2. destruct t as [s| |d|l|l]; cbn in I; try contradiction; cbn [jpy]; split; cbn; auto; intros; discriminate. }
    edestruct (objects_entry (jpy (fun s => Dict (ser s)) t)) as (v1 & A1 & F1 & T1); [apply Q; cbn; auto; discriminate|apply Q; cbn; auto; discriminate|].
    edestruct (objects_entry (jpy (fun s : sobj N => Leaf (AStr (append (cls_module (cls_of s)) (append "." (cls_name (cls_of s)))))) t)) as (v2 & A2 & F2 & T2); [apply Q; cbn; auto; discriminate|apply Q; cbn; auto; discriminate|].
    edestruct (objects_entry (jpy (fun s : sobj N => Leaf (AStr (cls_name (cls_of s)))) t)) as (v3 & A3 & F3 & T3); [apply Q; cbn; auto; discriminate|apply Q; cbn; auto; discriminate|].
    edestruct (objects_entry (jpy (fun s : sobj N => Leaf (AStr (cls_module (cls_of s)))) t)) as (v4 & A4 & F4 & T4); [apply Q; cbn; auto; discriminate|apply Q; cbn; auto; discriminate|].
    rewrite A1, A2, A3, A4. cbn [seq_dict rbind map fst snd]. rewrite F1, F2, F3, F4. cbn [seq_dict rbind].
    destruct (revives_all (Mixed t) (pr_mixed _ W HP) [("feature_scalers", v1); ("scaler_fulltypenames", v2); ("scaler_typenames", v3); ("scaler_modules", v4)]) as (s' & E & S).
    { eapply tr_dict; [reflexivity|]. cbn [ser]. repeat constructor; assumption. }
    cbn [cls_of] in E. rewrite E. exists s'. split; [reflexivity|exact S].
Qed.
End Main.
