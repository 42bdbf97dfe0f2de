(** C132: a mixed scaler scales each part of the data by what it has seen of that
    part. *)
From Coq Require Import ZArith Lia.
From Verif Require Import Base BaseLemmas TreeUtil TreeSpec NonSeqSpec SerialSpec ScalerTyped ScalerTypedProofs ScalerFile ScalerShare ScalerShareSpec ScalerShareProofs ScalerShareMain.
Local Open Scope string_scope.
Local Open Scope list_scope.
Local Open Scope nat_scope.

Section Props.
Context {K St A : Type} (num : A -> nat) (fit1 : K -> tree A -> result St) (use : K -> St -> tree A -> result (tree A)).
Notation heap := (heap K St).

(** [Z] is what the scalers of [r], fitted to their parts of [X] and nothing
    else, make of [Y]. *)
Definition scaled (h : heap) (r : nat) (X Y Z : tree A) : Prop :=
  (forall p q k, place h r p q k -> exists X' Y' Z' s, at_path X p = Some X' /\ at_path Y p = Some Y' /\ at_path Z p = Some Z' /\ fit1 k X' = Ok s /\ use k s Y' = Ok Z') /\
  (forall p, left_out h r p -> exists V, at_path Y p = Some V /\ at_path Z p = Some V).

(** Missing: scalers that are used in two places. Mixed scalers may be nested,
    the objects may have been fitted before. Data with one number of samples are
    accepted if the scalers accept their parts and keep that number. *)
Theorem C132_own_data_partial : forall fuel h r X h', wf_heap h -> unshared h r -> fit num fit1 fuel h r X = (h', Ok tt) ->
  (forall fuel' Y Z, run num use fuel' h' r Y = Ok Z -> scaled h r X Y Z) /\
  (forall n Y, wf_tree X -> trel (fun _ _ => True) X Y -> (forall a, has_leaf Y a -> num a = n) ->
     (forall p q k X' Y' s, place h r p q k -> at_path X p = Some X' -> at_path Y p = Some Y' -> fit1 k X' = Ok s -> exists Z', use k s Y' = Ok Z' /\ forall a, has_leaf Z' a -> num a = n) ->
     exists Z, run num use fuel h' r Y = Ok Z).
Proof.
  intros fuel h r X h' W U E. destruct (fit_local num fit1 fuel _ _ _ _ _ W E) as [KD _]. pose proof (kindred_wf _ _ KD W) as W'.
  assert (ST : forall p q k, place h r p q k -> exists X' s, at_path X p = Some X' /\ fit1 k X' = Ok s /\ nth_error h' q = Some (Plain k (Some s))).
  { intros p q k P. apply (fit_stats num fit1 fuel h r X h' p q k W E P). intros p' k' P'. exact (U p' p q k' k P' P). }
  split.
  - intros fuel' Y Z R. destruct (run_places num use fuel' h' r Y Z W' R) as [R1 R2]. split.
    + intros p q k P. destruct (ST p q k P) as (X' & s & H1 & H2 & H3). destruct (R1 p q k (kindred_place _ _ KD _ _ _ _ P)) as (s' & Y' & Z' & J1 & J2 & J3 & J4).
      rewrite H3 in J1. injection J1 as <-. exists X', Y', Z', s. auto.
    + intros p O. exact (R2 p (kindred_out _ _ KD _ _ O)).
  - intros n Y WX T CY H. destruct (run_ok num use n fuel h' r X Y W' (kindred_fits' fuel h h' r X KD (fit_fits num fit1 fuel h r X h' W E)) WX T CY) as (Z & EZ & _); [|exists Z; exact EZ].
    intros p q k Y' P HY. apply (kindred_back _ _ KD) in P. destruct (ST p q k P) as (X' & s & H1 & H2 & H3). destruct (H p q k X' Y' s P H1 HY H2) as (Z' & HZ). exists s, Z'. auto.
Qed.
(** Data with a part whose scaler was not fitted is refused. *)
Theorem C132_unfitted : forall fuel h r p q k Y Z, wf_heap h -> place h r p q k -> nth_error h q = Some (Plain k None) -> run num use fuel h r Y <> Ok Z.
Proof. intros fuel h r p q k Y Z W P G R. destruct (run_places num use fuel h r Y Z W R) as [R1 _]. destruct (R1 p q k P) as (s & Y' & Z' & J & _). congruence. Qed.
(** Fitting, also when it raises, does not touch scalers that have no object in
    common with the one that is fitted. *)
Theorem C132_others : forall fuel h r X h' e, wf_heap h -> fit num fit1 fuel h r X = (h', e) ->
  forall r2, (forall p p2 q k k2, place h r p q k -> place h r2 p2 q k2 -> False) -> forall fuel' Y, run num use fuel' h' r2 Y = run num use fuel' h r2 Y.
Proof.
  intros fuel h r X h' e W E r2 D fuel' Y. destruct (fit_local num fit1 fuel _ _ _ _ _ W E) as [KD L]. apply (run_same num use fuel' h h' r2 Y W KD).
  intros p2 q k2 P2. apply L. intros p k P. exact (D p p2 q k k2 P P2).
Qed.
(** One object under two keys: both parts are scaled by the second. *)
Theorem C132_shared_never : forall fuel h r q k s0 Xa Xb h', nth_error h r = Some (Mixed (Some (Dict [("a", Leaf q); ("b", Leaf q)]))) -> nth_error h q = Some (Plain k s0) ->
  fit num fit1 (S (S fuel)) h r (Dict [("a", Xa); ("b", Xb)]) = (h', Ok tt) ->
  exists s, fit1 k Xb = Ok s /\ forall Ya Yb Z, run num use (S (S fuel)) h' r (Dict [("a", Ya); ("b", Yb)]) = Ok Z ->
    exists Za Zb, use k s Ya = Ok Za /\ use k s Yb = Ok Zb /\ Z = Dict [("a", Za); ("b", Zb)].
Proof.
  intros fuel h r q k s0 Xa Xb h' G Gq E. assert (L : q < length h) by (apply nth_error_Some; congruence). assert (N : r <> q) by congruence.
  cbn [fit] in E. rewrite G in E. destruct (one_number _); [|discriminate]. change (pairs (Dict [("a", Leaf q); ("b", Leaf q)]) (Dict [("a", Xa); ("b", Xb)])) with (@Ok (list (nat * tree A)) [(q, Xa); (q, Xb)]) in E. cbn [each fit] in E. rewrite Gq in E.
  destruct (fit1 k Xa) as [s1|er]; [|discriminate]. rewrite (upd_same h q _ L) in E. destruct (fit1 k Xb) as [s|er]; [|discriminate]. injection E as <-. exists s. split; [reflexivity|]. intros Ya Yb Z RZ.
  assert (L' : q < length (upd h q (Plain k (Some s1)))) by (apply nth_error_Some; rewrite (upd_same h q _ L); discriminate).
  assert (R : forall Y, run num use (S fuel) (upd (upd h q (Plain k (Some s1))) q (Plain k (Some s))) q Y = use k s Y) by (intros Y; cbn [run]; rewrite (upd_same (upd h q (Plain k (Some s1))) q _ L'); reflexivity).
  assert (G' : nth_error (upd (upd h q (Plain k (Some s1))) q (Plain k (Some s))) r = Some (Mixed (Some (Dict [("a", Leaf q); ("b", Leaf q)])))) by (rewrite !upd_other by exact N; exact G).
  revert RZ R G'. generalize (upd (upd h q (Plain k (Some s1))) q (Plain k (Some s))). intros h2 RZ R G'. remember (S fuel) as g eqn:Hg. cbn [run] in RZ. rewrite G' in RZ. apply call_inv in RZ.
  change (pre (run num use g h2) (Dict [("a", Leaf q); ("b", Leaf q)]) (Dict [("a", Ya); ("b", Yb)])) with (let* e := seq_dict [("a", run num use g h2 q Ya); ("b", run num use g h2 q Yb)] in Ok (Dict e)) in RZ.
  rewrite !R in RZ. cbn [seq_dict] in RZ. destruct (use k s Ya) as [Za|ea]; [|discriminate]. cbn [rbind] in RZ. destruct (use k s Yb) as [Zb|eb]; [|discriminate]. cbn in RZ. injection RZ as <-. exists Za, Zb. auto.
Qed.
End Props.

(* ------------------------------------------------------------------ *)
(** Examples: a scaler learns the first number it sees and subtracts it. *)
Definition x_num (_ : Z) : nat := 1.
Definition x_fit (_ : unit) (X : tree Z) : result Z := match leaves X with x :: _ => Ok x | [] => Err IndexError end.
Fixpoint x_sub (s : Z) (X : tree Z) : tree Z :=
  match X with
  | Leaf x => Leaf (x - s)%Z
  | NoneT => NoneT
  | Dict d => Dict (map (fun kv => (fst kv, x_sub s (snd kv))) d)
  | Lst l => Lst (map (x_sub s) l)
  | Tup l => Tup (map (x_sub s) l)
  end.
Definition x_use (_ : unit) (s : Z) (X : tree Z) : result (tree Z) := Ok (x_sub s X).
Notation P0 := (@Plain unit Z tt None).

(** Object 0 contains objects 1 and 2, leaves one part alone, and contains the
    mixed scaler 3, which contains 4. *)
Definition x_heap : heap unit Z := [Mixed (Some (Dict [("b", Leaf 2); ("a", Leaf 1); ("c", NoneT); ("m", Leaf 3)])); P0; P0; Mixed (Some (Lst [NoneT; Leaf 4])); P0].
Definition x_X : tree Z := Dict [("a", Leaf 10%Z); ("b", Lst [Leaf 20%Z; Leaf 30%Z]); ("c", Leaf 40%Z); ("m", Lst [Leaf 50%Z; Leaf 60%Z])].
Lemma x_mixed r t : nth_error x_heap r = Some (Mixed (Some t)) ->
  r = 0 /\ t = Dict [("b", Leaf 2); ("a", Leaf 1); ("c", NoneT); ("m", Leaf 3)] \/ r = 3 /\ t = Lst [NoneT; Leaf 4].
Proof. intros H. destruct r as [|[|[|[|[|r]]]]]; cbn in H; try discriminate; [left|right|destruct r; discriminate]; injection H as <-; auto. Qed.
Lemma x_wf : wf_heap x_heap.
Proof.
  intros r t H. apply x_mixed in H as [[-> ->]|[-> ->]].
  - constructor; [|repeat constructor]. cbn. repeat constructor; cbn; intuition discriminate.
  - constructor. repeat constructor.
Qed.
Lemma x_down p r' : at_path (Dict [("b", Leaf 2); ("a", Leaf 1); ("c", NoneT); ("m", Leaf 3)]) p = Some (Leaf r') -> (p = [Name "a"] /\ r' = 1) \/ (p = [Name "b"] /\ r' = 2) \/ (p = [Name "m"] /\ r' = 3).
Proof.
  destruct p as [|[n|i] p]; try discriminate. cbn [at_path down dget]. destruct (String.eqb n "b") eqn:E1; [apply String.eqb_eq in E1; subst; destruct p; cbn; [intros [= <-]; auto|discriminate]|].
  destruct (String.eqb n "a") eqn:E2; [apply String.eqb_eq in E2; subst; destruct p; cbn; [intros [= <-]; auto|discriminate]|].
  destruct (String.eqb n "c") eqn:E3; [apply String.eqb_eq in E3; subst; destruct p; discriminate|].
  destruct (String.eqb n "m") eqn:E4; [apply String.eqb_eq in E4; subst; destruct p; cbn; [intros [= <-]; auto|discriminate]|discriminate].
Qed.
Lemma x_down3 p r' : at_path (Lst [NoneT; Leaf 4]) p = Some (Leaf r') -> p = [Pos 1] /\ r' = 4.
Proof. destruct p as [|[n|[|[|i]]] p]; try discriminate; cbn; [destruct p; discriminate|destruct p; cbn; [intros [= <-]; auto|discriminate]|destruct i; discriminate]. Qed.
Lemma x_plain r p q k : r <> 0 -> r <> 3 -> place x_heap r p q k -> p = [] /\ q = r.
Proof. intros N1 N2 P. inversion P as [r0 k0 s0 G|r0 t p0 r' p' q0 k0 G Ha P']; subst; [auto|]. apply x_mixed in G. lia. Qed.
Lemma x_place3 p q k : place x_heap 3 p q k -> p = [Pos 1] /\ q = 4.
Proof.
  intros P. inversion P as [r0 k0 s0 G|r0 t p0 r' p' q0 k0 G Ha P']; subst; [discriminate|]. apply x_mixed in G as [[? _]|[_ ->]]; [discriminate|].
  apply x_down3 in Ha as [-> ->]. apply x_plain in P' as [-> ->]; [auto|lia|lia].
Qed.
Lemma x_place p q k : place x_heap 0 p q k -> p = [Name "a"] /\ q = 1 \/ p = [Name "b"] /\ q = 2 \/ p = [Name "m"; Pos 1] /\ q = 4.
Proof.
  intros P. inversion P as [r0 k0 s0 G|r0 t p0 r' p' q0 k0 G Ha P']; subst; [discriminate|]. apply x_mixed in G as [[_ ->]|[? _]]; [|discriminate].
  apply x_down in Ha as [[-> ->]|[[-> ->]|[-> ->]]].
  - apply x_plain in P' as [-> ->]; [auto|lia|lia].
  - apply x_plain in P' as [-> ->]; [auto|lia|lia].
  - apply x_place3 in P' as [-> ->]. auto.
Qed.
Example C132_example : wf_heap x_heap /\ unshared x_heap 0 /\
  exists h', fit x_num x_fit 3 x_heap 0 x_X = (h', Ok tt) /\
    run x_num x_use 3 h' 0 (Dict [("a", Leaf 11%Z); ("b", Lst [Leaf 22%Z; Leaf 33%Z]); ("c", Leaf 44%Z); ("m", Lst [Leaf 55%Z; Leaf 66%Z])]) =
    Ok (Dict [("a", Leaf 1%Z); ("b", Lst [Leaf 2%Z; Leaf 13%Z]); ("c", Leaf 44%Z); ("m", Lst [Leaf 55%Z; Leaf 6%Z])]) /\
    exists h2, fit x_num x_fit 3 h' 0 (Dict [("a", Leaf 1%Z); ("b", Leaf 2%Z); ("c", Leaf 4%Z); ("m", Lst [Leaf 5%Z; Leaf 6%Z])]) = (h2, Ok tt) /\
    run x_num x_use 3 h2 0 x_X = Ok (Dict [("a", Leaf 9%Z); ("b", Lst [Leaf 18%Z; Leaf 28%Z]); ("c", Leaf 40%Z); ("m", Lst [Leaf 50%Z; Leaf 54%Z])]).
Proof.
  split; [exact x_wf|]. split.
  - intros p p' q k k' H H'. apply x_place in H as [[-> ->]|[[-> ->]|[-> ->]]]; apply x_place in H' as [[-> E]|[[-> E]|[-> E]]]; try reflexivity; discriminate.
  - eexists. split; [reflexivity|]. split; [reflexivity|]. eexists. split; reflexivity.
Qed.
Example C132_unfitted_example : run x_num x_use 3 x_heap 0 x_X = Err RuntimeError.
Proof. reflexivity. Qed.
(** Objects 5 and 6: another mixed scaler with its own scaler. *)
Example C132_others_example : exists h1 h2, fit x_num x_fit 3 (x_heap ++ [Mixed (Some (Leaf 6)); P0]) 5 (Leaf 7%Z) = (h1, Ok tt) /\ fit x_num x_fit 3 h1 0 x_X = (h2, Ok tt) /\
  run x_num x_use 3 h2 5 (Leaf 9%Z) = Ok (Leaf 2%Z) /\ run x_num x_use 3 h1 5 (Leaf 9%Z) = Ok (Leaf 2%Z).
Proof. eexists. eexists. split; [reflexivity|]. split; [reflexivity|]. split; reflexivity. Qed.

(** Without the condition: [s = StandardScaler()], [MixedScaler({"a": s, "b": s})]. *)
Definition own_data_always : Prop := forall (K St A : Type) (num : A -> nat) (fit1 : K -> tree A -> result St) (use : K -> St -> tree A -> result (tree A)) fuel h r X h', wf_heap h -> fit num fit1 fuel h r X = (h', Ok tt) ->
  forall fuel' Y Z, run num use fuel' h' r Y = Ok Z -> scaled fit1 use h r X Y Z.
Definition x_shared : heap unit Z := [Mixed (Some (Dict [("a", Leaf 1); ("b", Leaf 1)])); P0].
Theorem C132_shared_refuted :
  (exists h', fit x_num x_fit 2 x_shared 0 (Dict [("a", Leaf 10%Z); ("b", Leaf 20%Z)]) = (h', Ok tt) /\
     run x_num x_use 2 h' 0 (Dict [("a", Leaf 10%Z); ("b", Leaf 20%Z)]) = Ok (Dict [("a", Leaf (-10)%Z); ("b", Leaf 0%Z)])) /\
  ~ own_data_always.
Proof.
  assert (W : exists h', fit x_num x_fit 2 x_shared 0 (Dict [("a", Leaf 10%Z); ("b", Leaf 20%Z)]) = (h', Ok tt) /\
     run x_num x_use 2 h' 0 (Dict [("a", Leaf 10%Z); ("b", Leaf 20%Z)]) = Ok (Dict [("a", Leaf (-10)%Z); ("b", Leaf 0%Z)])) by (eexists; split; reflexivity).
  split; [exact W|]. intros H. destruct W as (h' & E & R).
  assert (WF : wf_heap x_shared).
  { intros r t G. destruct r as [|[|r]]; cbn in G; try discriminate; [|destruct r; discriminate]. injection G as <-. constructor; [|repeat constructor]. cbn. repeat constructor; cbn; intuition discriminate. }
  destruct (H _ _ _ _ _ _ _ _ _ _ _ WF E _ _ _ R) as [S _].
  destruct (S [Name "a"] 1 tt) as (X' & Y' & Z' & s & H1 & H2 & H3 & H4 & H5).
  - apply (under x_shared 0 (Dict [("a", Leaf 1); ("b", Leaf 1)]) [Name "a"] 1 [] 1 tt); [reflexivity|reflexivity|]. apply (here x_shared 1 tt None). reflexivity.
  - cbn in H1, H2, H3. injection H1 as <-. injection H2 as <-. injection H3 as <-. cbn in H4. injection H4 as <-. cbn in H5. discriminate.
Qed.
(** Two mixed scalers with an object in common: fitting one changes the other. *)
Definition others_always : Prop := forall (K St A : Type) (num : A -> nat) (fit1 : K -> tree A -> result St) (use : K -> St -> tree A -> result (tree A)) fuel h r X h' e, wf_heap h -> fit num fit1 fuel h r X = (h', e) ->
  forall r2 fuel' Y, r2 <> r -> run num use fuel' h' r2 Y = run num use fuel' h r2 Y.
Definition x_two : heap unit Z := [Mixed (Some (Leaf 2)); Mixed (Some (Leaf 2)); P0].
Theorem C132_common_refuted :
  (exists h1 h2, fit x_num x_fit 2 x_two 0 (Leaf 10%Z) = (h1, Ok tt) /\ fit x_num x_fit 2 h1 1 (Leaf 20%Z) = (h2, Ok tt) /\
     run x_num x_use 2 h1 0 (Leaf 10%Z) = Ok (Leaf 0%Z) /\ run x_num x_use 2 h2 0 (Leaf 10%Z) = Ok (Leaf (-10)%Z)) /\
  ~ others_always.
Proof.
  split; [eexists; eexists; split; [reflexivity|]; split; [reflexivity|]; split; reflexivity|]. intros H.
  assert (WF : wf_heap [Mixed (Some (Leaf 2)); Mixed (Some (Leaf 2)); @Plain unit Z tt (Some 10%Z)]).
  { intros r t G. destruct r as [|[|[|r]]]; cbn in G; try discriminate; [injection G as <-; constructor|injection G as <-; constructor|destruct r; discriminate]. }
  specialize (H unit Z Z x_num x_fit x_use 2 _ 1 (Leaf 20%Z) _ _ WF eq_refl 0 2 (Leaf 10%Z) ltac:(lia)). discriminate.
Qed.
Print Assumptions C132_own_data_partial.
Print Assumptions C132_unfitted.
Print Assumptions C132_others.
Print Assumptions C132_shared_never.
Print Assumptions C132_shared_refuted.
Print Assumptions C132_common_refuted.
