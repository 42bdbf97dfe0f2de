(** Proofs about copying modules. *)
From Coq Require Import ZArith.
From Verif Require Import Base BaseLemmas Modules ModulesSpec.
Local Open Scope string_scope.
Local Open Scope list_scope.
Local Open Scope nat_scope.

Lemma leaves_forallb (f : pv -> bool) v : leaves_are f v -> forallb f (pleaves v) = true.
Proof. intros H; apply forallb_forall; exact H. Qed.
Lemma ser_int tw v : leaves_are is_int v -> serializable tw v = true.
Proof.
  intros H%leaves_forallb. unfold serializable. destruct v; auto; cbv zeta; rewrite H; reflexivity.
Qed.
Lemma ser_bool tw v : leaves_are is_bool v -> serializable tw v = true.
Proof.
  intros H%leaves_forallb. unfold serializable. destruct v; auto; cbv zeta; rewrite H; rewrite ?orb_true_r; reflexivity.
Qed.
Lemma ser_str tw v : leaves_are is_str v -> serializable tw v = true.
Proof.
  intros H%leaves_forallb. unfold serializable. destruct v; auto; cbv zeta; rewrite H; rewrite ?orb_true_r; reflexivity.
Qed.
Lemma ser_arr tw v : leaves_are is_arr v -> serializable tw v = true.
Proof.
  intros H%leaves_forallb. unfold serializable. destruct v; auto; cbv zeta; rewrite H; rewrite ?orb_true_r; reflexivity.
Qed.
Lemma ser_VBool tw b : serializable tw (VBool b) = true. Proof. reflexivity. Qed.
Lemma ser_VStr tw b : serializable tw (VStr b) = true.
Proof. unfold serializable; cbn. destruct tw; reflexivity. Qed.
Lemma ser_VFloat tw b : serializable tw (VFloat b) = true.
Proof. unfold serializable; cbn. reflexivity. Qed.
Lemma ser_VInt tw b : serializable tw (VInt b) = true.
Proof. reflexivity. Qed.
Lemma ser_opt tw n : serializable tw (opt_nat n) = true.
Proof. destruct n; reflexivity. Qed.
Lemma ser_shape_v tw l : serializable tw (shape_v l) = true.
Proof.
  apply ser_int. intros x Hx. cbn in Hx. apply in_flat_map in Hx as (y & Hy & Hx).
  apply in_map_iff in Hy as (n & <- & _). cbn in Hx. destruct Hx as [<-|[]]. reflexivity.
Qed.

Lemma same_refl o : same_obj o o.
Proof. split; auto. Qed.

Ltac ser :=
  repeat first [ rewrite ser_VBool | rewrite ser_VStr | rewrite ser_VFloat | rewrite ser_VInt | rewrite ser_opt | rewrite ser_shape_v
               | match goal with H : serializable _ _ = true |- _ => rewrite H end ].
Ltac go := cbn -[serializable shape_v opt_nat str_list_eqb]; ser; cbn -[serializable shape_v opt_nat str_list_eqb].
Ltac fin := eexists; split; [reflexivity | apply same_refl].
(** Attribute order may differ between the copy and the original. *)
Ltac fin' := eexists; split; [reflexivity | split; [intros k; cbn -[String.eqb] | reflexivity]].

Section T.
Context (tw : bool).

Lemma copy_eigen k w t : copies tw eigen_cls (eigen_obj k w t).
Proof. unfold copies, copy, serialize, deserialize. destruct k; go; fin. Qed.
Lemma copy_reshape v t : leaves_are is_int v -> copies tw reshape_cls (reshape_obj v t).
Proof. intros H%(ser_int tw). unfold copies, copy, serialize, deserialize. go; fin. Qed.
Lemma copy_treeflatten t : copies tw treeflatten_cls (mk_obj [] t).
Proof. unfold copies, copy, serialize, deserialize. go; fin. Qed.
Lemma copy_treekey v s t : leaves_are is_str v -> copies tw treekey_cls (treekey_obj v s t).
Proof. intros H%(ser_str tw). unfold copies, copy, serialize, deserialize. go; fin. Qed.
Lemma copy_comment c t : copies tw comment_cls (comment_obj c t).
Proof. unfold copies, copy, serialize, deserialize. destruct c; go; fin. Qed.
Lemma copy_activation a kw t :
  serializable tw (VTup a) = true -> serializable tw (VDict kw) = true ->
  copies tw activation_cls (activation_obj a kw t).
Proof. intros H1 H2. unfold copies, copy, serialize, deserialize. go; fin. Qed.
Lemma copy_concat ax t : copies tw concat_cls (concat_obj ax VNone "." t).
Proof. unfold copies, copy, serialize, deserialize. destruct ax; go; fin. Qed.
Lemma copy_constant c sh mag real name t :
  leaves_are is_int sh -> leaves_are is_bool real ->
  copies tw constant_cls (constant_obj c sh mag real name t).
Proof.
  intros H1%(ser_int tw) H2%(ser_bool tw). unfold copies, copy, serialize, deserialize. destruct c; go; fin.
Qed.
Lemma copy_prelu chk single mag real a i t :
  leaves_are is_int i -> copies tw (prelu_cls chk) (prelu_obj single mag real a i t).
Proof.
  intros H1%(ser_int tw). unfold copies, copy, serialize, deserialize. destruct a; go; fin.
Qed.
Lemma copy_einsum str params dm mag real i t :
  leaves_are is_str str -> leaves_are is_int dm -> leaves_are is_int i ->
  copies tw einsum_cls (einsum_obj str params dm mag real i t).
Proof.
  intros H1%(ser_str tw) H2%(ser_int tw) H3%(ser_int tw).
  unfold copies, copy, serialize, deserialize.
  destruct t; go; [destruct params; go; fin|].
  destruct (serializable tw params) eqn:E; go; unfold einsum_set_hyper, in_hyper; go; destruct params; try discriminate E; go; fin.
Qed.
Lemma copy_matmul params osh po mag real str dm i t :
  leaves_are is_int osh -> leaves_are is_str po -> leaves_are is_str str -> leaves_are is_int dm -> leaves_are is_int i ->
  copies tw matmul_cls (matmul_obj params osh po (VFloat mag) (VBool real) (VStr ".") str dm i t).
Proof.
  intros H1%(ser_int tw) H2%(ser_str tw) H3%(ser_str tw) H4%(ser_int tw) H5%(ser_int tw).
  unfold copies, copy, serialize, deserialize.
  destruct t; go; [destruct params; go; fin|].
  destruct (serializable tw params) eqn:E; go; unfold einsum_set_hyper, in_hyper; go; destruct params; try discriminate E; go; fin.
Qed.

(** ** Bias *)
Definition bias_inv (o : obj) : Prop :=
  exists b mag real scalar t, o = bias_obj b mag real scalar t /\ (b = VNone \/ bias_check scalar real b = Ok tt).

Lemma drawn_check real scalar p : bias_drawn real scalar p -> bias_check scalar real p = Ok tt.
Proof.
  intros [a Hr Hs | q Hs Hne Hall]; unfold bias_check.
  - cbn. destruct scalar; [rewrite (Hs eq_refl)|]; cbn; rewrite Hr; destruct real; reflexivity.
  - subst scalar.
    assert (Ha : forallb is_arr (pleaves q) = true).
    { apply forallb_forall; intros x Hx; destruct (Hall x Hx) as (a & -> & _); reflexivity. }
    rewrite Ha. cbn.
    destruct real; cbn.
    + assert (Hr : forallb real_leaf (pleaves q) = true).
      { apply forallb_forall; intros x Hx; destruct (Hall x Hx) as (a & -> & H); exact H. }
      rewrite Hr. reflexivity.
    + destruct (pleaves q) as [|x l] eqn:E; [congruence|].
      destruct (Hall x (or_introl eq_refl)) as (a & -> & H). cbn. rewrite H. reflexivity.
Qed.

Lemma bias_reach_inv asarray o :
  reach (fun o => exists b mag real scalar t,
           (scalar = false -> leaves_are is_arr b) /\ bias_init asarray b mag real scalar t = Ok o)
        bias_compiled bias_set_par o -> bias_inv o.
Proof.
  induction 1 as [o (b & mag & real & scalar & t & Harr & Hi) | o o' _ IH Hc | o p o' _ IH Hp | o bb _ IH].
  - unfold bias_init in Hi.
    assert (D : b = VNone \/ b <> VNone) by (destruct b; auto; right; discriminate).
    destruct D as [-> | Hb].
    { injection Hi as <-. do 5 eexists; split; [reflexivity | auto]. }
    assert (Hi' : (if scalar && negb (is_scalar b) then Err ValueError
      else let* _ := if scalar then Ok tt
                     else match pleaves b with
                          | [] => Err IndexError
                          | v :: _ => if is_arr v then Ok tt else Err ValueError
                          end in
           if real && negb (forallb real_leaf (pleaves b)) then Err ValueError
           else if negb real && forallb real_leaf (pleaves b) then Err ValueError
           else Ok (bias_obj (if scalar then VArr (mk_arr (asarray b) [1] (forallb real_leaf (pleaves b))) else b)
                             mag real scalar t)) = Ok o) by (destruct b; auto; congruence).
    clear Hi. destruct (scalar && negb (is_scalar b)) eqn:E1; [discriminate|].
    destruct (if scalar then Ok tt else _) eqn:E2 in Hi'; [|discriminate].
    cbn [rbind] in Hi'.
    destruct (real && negb (forallb real_leaf (pleaves b))) eqn:E3; [discriminate|].
    destruct (negb real && forallb real_leaf (pleaves b)) eqn:E4; [discriminate|].
    injection Hi' as <-. do 5 eexists; split; [reflexivity|]. right.
    unfold bias_check. destruct scalar.
    + cbn. destruct (forallb real_leaf (pleaves b)), real; try reflexivity; discriminate.
    + rewrite (leaves_forallb is_arr b (Harr eq_refl)). cbn. rewrite E3, E4. reflexivity.
  - destruct IH as (b & mag & real & scalar & t & -> & Hb).
    destruct Hc as (r & s & p & Hr & Hs & [(_ & ->) | (Hn & Hd & ->)]).
    + do 5 eexists; split; [reflexivity | exact Hb].
    + cbn in Hr, Hs. injection Hr as <-. injection Hs as <-.
      exists p, mag, real, scalar, t. split; [reflexivity|]. right. apply drawn_check; exact Hd.
  - destruct IH as (b & mag & real & scalar & t & -> & Hb).
    unfold bias_set_par in Hp. cbn in Hp.
    destruct (match b with VNone => _ | _ => _ end) eqn:E1 in Hp; [|discriminate].
    cbn [rbind] in Hp. destruct (bias_check scalar real p) as [[]|] eqn:E2; [|discriminate].
    cbn in Hp. injection Hp as <-. exists p, mag, real, scalar, t. split; [reflexivity|auto].
  - destruct IH as (b & mag & real & scalar & t & -> & Hb).
    exists b, mag, real, scalar, bb. split; [reflexivity|exact Hb].
Qed.

Lemma copy_bias o : bias_inv o -> copies tw bias_cls o.
Proof.
  intros (b & mag & real & scalar & t & -> & Hb).
  unfold copies, copy, serialize, deserialize.
  cbn -[serializable bias_check]; ser; cbn -[serializable bias_check].
  assert (D : b = VNone \/ b <> VNone) by (destruct b; auto; right; discriminate).
  destruct D as [-> | Hn]; [go; fin|].
  destruct Hb as [?|Hb]; [contradiction|].
  exists (bias_obj b mag real scalar t). split; [|apply same_refl].
  destruct b; try congruence; cbn -[bias_check]; rewrite Hb; reflexivity.
Qed.

(** ** AffineHermitianMatrix, AffineTensor, ExpectationValueSum *)
Context (herm : arr -> bool).
Context (draw : list nat -> arr) (draw_shape : forall s, a_shape (draw s) = s) (draw_herm : forall s, herm (draw s) = true).

Lemma sle_eq a b : str_list_eqb a b = true -> a = b.
Proof. unfold str_list_eqb. destruct (list_eq_dec Nat.eq_dec a b); congruence. Qed.
Lemma sle_refl a : str_list_eqb a a = true.
Proof. unfold str_list_eqb. destruct (list_eq_dec Nat.eq_dec a a); congruence. Qed.
Lemma nat_of_opt n k : nat_of_v (opt_nat n) = Some k -> n = Some k.
Proof.
  destruct n as [n|]; cbn; [|discriminate]. destruct (0 <=? Z.of_nat n)%Z; [|discriminate].
  intros [= <-]. f_equal. symmetry. apply Nat2Z.id.
Qed.
Lemma nat_of_opt' k : nat_of_v (opt_nat (Some k)) = Some k.
Proof. cbn. destruct (0 <=? Z.of_nat k)%Z eqn:E; [f_equal; apply Nat2Z.id | lia]. Qed.

Definition ahm_inv (o : obj) : Prop :=
  exists n sm bt Ms mag t, o = ahm_obj n sm bt Ms mag t /\
    (forall m, Ms = Some m -> exists p k, n = Some k /\ a_shape m = [p; k; k] /\ herm m = true).

Lemma ahm_reach_inv o :
  reach (fun o => exists n sm Ms mag bt, ahm_init herm n sm Ms mag bt = Ok o)
        (fun o o' => exists d, ahm_compile draw o d = Ok o') (ahm_set_par herm) o -> ahm_inv o.
Proof.
  induction 1 as [o (n & sm & Ms & mag & bt & Hi) | o o' _ IH (d & Hc) | o p o' _ IH Hp | o bb _ IH].
  - unfold ahm_init in Hi.
    assert (Hi' : match Ms with
      | None => Ok (ahm_obj n sm bt None mag true)
      | Some m =>
          match a_shape m with
          | a :: b :: _ =>
              let n := match n with Some n => n | None => b end in
              if negb (str_list_eqb (a_shape m) [a; n; n]) then Err ValueError
              else if negb (herm m) then Err ValueError
              else Ok (ahm_obj (Some n) sm bt Ms mag true)
          | _ => Err IndexError
          end
      end = Ok o) by (destruct n as [[|n]|]; [discriminate | exact Hi | exact Hi]).
    clear Hi. destruct Ms as [m|].
    + destruct (a_shape m) as [|a [|b r]] eqn:Es; try discriminate. cbv zeta in Hi'.
      set (k := match n with Some n => n | None => b end) in *.
      destruct (str_list_eqb (a :: b :: r) [a; k; k]) eqn:E1; [|discriminate].
      destruct (herm m) eqn:E2; [|discriminate]. injection Hi' as <-.
      apply sle_eq in E1.
      do 6 eexists. split; [reflexivity|]. intros m' [= <-]. exists a, k. rewrite Es. auto.
    + injection Hi' as <-. do 6 eexists. split; [reflexivity|]. discriminate.
  - destruct IH as (n & sm & bt & Ms & mag & t & -> & HM).
    unfold ahm_compile in Hc. cbn -[nat_of_v opt_nat] in Hc.
    destruct Ms as [m|].
    + destruct (hd 0 (a_shape m) =? _); [|discriminate]. injection Hc as <-.
      do 6 eexists. split; [reflexivity|exact HM].
    + destruct (nat_of_v (opt_nat n)) as [k|] eqn:E; [|discriminate].
      apply nat_of_opt in E. subst n. injection Hc as <-.
      exists (Some k), sm, bt, (Some (draw [if bt then S d else d; k; k])), mag, t.
      split; [reflexivity|]. intros m [= <-]. do 2 eexists. split; [reflexivity|]. split; [apply draw_shape | apply draw_herm].
  - destruct IH as (n & sm & bt & Ms & mag & t & -> & HM).
    unfold ahm_set_par in Hp. destruct p; try discriminate. cbn -[nat_of_v opt_nat] in Hp.
    destruct (a_shape a) as [|d r] eqn:Es; [discriminate|].
    destruct (nat_of_v (opt_nat n)) as [k|] eqn:E; [|discriminate]. apply nat_of_opt in E. subst n.
    cbv zeta in Hp. set (d' := match match Ms with Some _ => _ | None => _ end with VArr c => _ | _ => _ end) in Hp.
    destruct (str_list_eqb (d :: r) [d'; k; k]) eqn:E1; [|discriminate].
    destruct (herm a) eqn:E2; [|discriminate]. cbn in Hp. injection Hp as <-.
    apply sle_eq in E1.
    exists (Some k), sm, bt, (Some a), mag, t. split; [reflexivity|].
    intros m [= <-]. exists d', k. rewrite Es. auto.
  - destruct IH as (n & sm & bt & Ms & mag & t & -> & HM).
    exists n, sm, bt, Ms, mag, bb. split; [reflexivity|exact HM].
Qed.

Lemma copy_ahm o : ahm_inv o -> copies tw (ahm_cls herm) o.
Proof.
  intros (n & sm & bt & Ms & mag & t & -> & HM).
  unfold copies, copy, serialize, deserialize. go.
  destruct Ms as [m|]; [|go; fin].
  destruct (HM m eq_refl) as (p & k & -> & Hs & Hh).
  exists (ahm_obj (Some k) sm bt (Some m) mag t). split; [|apply same_refl].
  cbn -[nat_of_v opt_nat]. rewrite Hs, nat_of_opt', sle_refl, Hh. reflexivity.
Qed.

Lemma int_list_shape l : int_list (map (fun n => VInt (Z.of_nat n)) l) = Some l.
Proof.
  induction l as [|x l IH]; [reflexivity|]. change (map _ (x :: l)) with (VInt (Z.of_nat x) :: map (fun n => VInt (Z.of_nat n)) l).
  unfold int_list in *. cbn [fold_right]. rewrite IH.
  change (nat_of_v (VInt (Z.of_nat x))) with (nat_of_v (opt_nat (Some x))). rewrite nat_of_opt'. reflexivity.
Qed.

Definition at_inv (o : obj) : Prop :=
  exists sh bt Ms mag real t, o = at_obj sh bt Ms mag real t /\
    (forall m, Ms = Some m -> exists p l, sh = Some l /\ a_shape m = p :: l).

Lemma at_reach_inv o :
  reach (fun o => exists sh Ms mag bt real, at_init sh Ms mag bt real = Ok o)
        (fun o o' => exists d, at_compile draw o d = Ok o') at_set_par o -> at_inv o.
Proof.
  induction 1 as [o (sh & Ms & mag & bt & real & Hi) | o o' _ IH (d & Hc) | o p o' _ IH Hp | o bb _ IH].
  - unfold at_init in Hi. destruct (match sh with Some l => _ | None => _ end) in Hi; [discriminate|].
    destruct Ms as [m|].
    + destruct (a_shape m) as [|a r] eqn:Es; [discriminate|].
      set (l := match sh with Some (x :: l) => x :: l | _ => r end) in *. cbv zeta in Hi.
      destruct (str_list_eqb (a :: r) (a :: l)) eqn:E1; [|discriminate]. injection Hi as <-.
      apply sle_eq in E1.
      do 6 eexists. split; [reflexivity|]. intros m' [= <-]. exists a, l. rewrite Es. auto.
    + injection Hi as <-. do 6 eexists. split; [reflexivity|]. discriminate.
  - destruct IH as (sh & bt & Ms & mag & real & t & -> & HM).
    unfold at_compile in Hc. cbn -[int_list shape_v] in Hc.
    destruct Ms as [m|].
    + destruct (hd 0 (a_shape m) =? _); [|discriminate]. injection Hc as <-.
      do 6 eexists. split; [reflexivity|exact HM].
    + destruct sh as [l|]; [|discriminate]. unfold shape_v in Hc. rewrite int_list_shape in Hc. injection Hc as <-.
      exists (Some l), bt, (Some (draw ((if bt then S d else d) :: l))), mag, real, t.
      split; [reflexivity|]. intros m [= <-]. do 2 eexists. split; [reflexivity|]. apply draw_shape.
  - destruct IH as (sh & bt & Ms & mag & real & t & -> & HM).
    unfold at_set_par in Hp. destruct p; try discriminate. cbn -[int_list shape_v] in Hp.
    destruct (a_shape a) as [|d r] eqn:Es; [discriminate|].
    destruct sh as [l|]; [|discriminate]. unfold shape_v in Hp. rewrite int_list_shape in Hp.
    cbv zeta in Hp. set (d' := match match Ms with Some _ => _ | None => _ end with VArr c => _ | _ => _ end) in Hp.
    destruct (str_list_eqb (d :: r) (d' :: l)) eqn:E1; [|discriminate]. injection Hp as <-.
    apply sle_eq in E1.
    exists (Some l), bt, (Some a), mag, real, t. split; [reflexivity|].
    intros m [= <-]. exists d', l. rewrite Es. auto.
  - destruct IH as (sh & bt & Ms & mag & real & t & -> & HM).
    exists sh, bt, Ms, mag, real, bb. split; [reflexivity|exact HM].
Qed.

Lemma copy_at o : at_inv o -> copies tw at_cls o.
Proof.
  intros (sh & bt & Ms & mag & real & t & -> & HM).
  unfold copies, copy, serialize, deserialize.
  assert (Hsh : serializable tw (match sh with Some l => shape_v l | None => VNone end) = true).
  { destruct sh; [apply ser_shape_v | reflexivity]. }
  go.
  destruct Ms as [m|]; [|go; fin].
  destruct (HM m eq_refl) as (p & l & -> & Hs).
  exists (at_obj (Some l) bt (Some m) mag real t). split; [|apply same_refl].
  cbn -[int_list]. rewrite Hs, int_list_shape, sle_refl. reflexivity.
Qed.

Definition evs_inv (o : obj) : Prop :=
  exists l q Ds mag ce t, o = evs_obj l q Ds mag ce t /\
    (forall m, Ds = Some m -> exists l' q' n, l = Some l' /\ q = Some q' /\ a_shape m = [q'; l'; n; n] /\ herm m = true).

Lemma evs_reach_inv o :
  reach (fun o => exists l q Ds mag ce, evs_init herm l q Ds mag ce = Ok o)
        (fun o o' => exists n, evs_compile draw o n = Ok o') (evs_set_par herm) o -> evs_inv o.
Proof.
  induction 1 as [o (l & q & Ds & mag & ce & Hi) | o o' _ IH (n & Hc) | o p o' _ IH Hp | o bb _ IH].
  - unfold evs_init in Hi. destruct Ds as [m|].
    + destruct (a_shape m) as [|a [|b [|c [|d [|? ?]]]]] eqn:Es; try discriminate.
      destruct (c =? d) eqn:E1; [|discriminate]. destruct (herm m) eqn:E2; [|discriminate].
      destruct (opt_is l b); [|discriminate]. destruct (opt_is q a); [|discriminate].
      cbn in Hi. injection Hi as <-. apply Nat.eqb_eq in E1; subst d.
      exists (Some b), (Some a), (Some m), mag, ce, true. split; [reflexivity|].
      intros m' [= <-]. exists b, a, c. auto.
    + injection Hi as <-. do 6 eexists. split; [reflexivity|]. discriminate.
  - destruct IH as (l & q & Ds & mag & ce & t & -> & HM).
    unfold evs_compile in Hc. cbn -[nat_of_v opt_nat] in Hc.
    destruct (nat_of_v (opt_nat l)) as [l'|] eqn:El; [|discriminate].
    destruct (nat_of_v (opt_nat q)) as [q'|] eqn:Eq; [|discriminate].
    apply nat_of_opt in El. apply nat_of_opt in Eq. subst l q.
    destruct Ds as [m|].
    + destruct (HM m eq_refl) as (l2 & q2 & k & _ & _ & Hs & _). rewrite Hs in Hc.
      destruct ((k =? n) && (k =? n)); [|discriminate]. injection Hc as <-.
      do 6 eexists. split; [reflexivity|exact HM].
    + injection Hc as <-.
      exists (Some l'), (Some q'), (Some (draw [q'; l'; n; n])), mag, ce, t.
      split; [reflexivity|]. intros m [= <-]. exists l', q', n. repeat split; [apply draw_shape | apply draw_herm].
  - destruct IH as (l & q & Ds & mag & ce & t & -> & HM).
    unfold evs_set_par in Hp. destruct p; try discriminate. cbn -[nat_of_v opt_nat str_list_eqb] in Hp.
    destruct (a_shape a) as [|x [|b [|c [|d [|? ?]]]]] eqn:Es; try discriminate.
    destruct (nat_of_v (opt_nat q)) as [q'|] eqn:Eq; [|discriminate].
    destruct (nat_of_v (opt_nat l)) as [l'|] eqn:El; [|discriminate].
    apply nat_of_opt in El. apply nat_of_opt in Eq. subst l q.
    destruct (str_list_eqb [x; b; c; d] [q'; l'; c; c]) eqn:E1; [|discriminate].
    destruct (herm a) eqn:E2; [|discriminate]. cbn in Hp. injection Hp as <-.
    apply sle_eq in E1.
    exists (Some l'), (Some q'), (Some a), mag, ce, t. split; [reflexivity|].
    intros m [= <-]. exists l', q', c. rewrite Es. auto.
  - destruct IH as (l & q & Ds & mag & ce & t & -> & HM).
    exists l, q, Ds, mag, ce, bb. split; [reflexivity|exact HM].
Qed.

Lemma copy_evs o : evs_inv o -> copies tw (evs_cls herm) o.
Proof.
  intros (l & q & Ds & mag & ce & t & -> & HM).
  unfold copies, copy, serialize, deserialize. go.
  destruct Ds as [m|]; [|go; fin].
  destruct (HM m eq_refl) as (l' & q' & n & -> & -> & Hs & Hh).
  exists (evs_obj (Some l') (Some q') (Some m) mag ce t). split; [|apply same_refl].
  cbn -[nat_of_v opt_nat str_list_eqb]. rewrite Hs, !nat_of_opt', sle_refl, Hh. reflexivity.
Qed.

(** A low-rank module never survives copying. *)
Lemma copy_lr_fails n r sm bt par mag t : copy tw lr_cls (lr_obj n r sm bt par mag t) = Err ValueError \/
  (exists l u, par = Some (l, u) /\ (a_shape l = [] \/ a_shape u = []) /\ copy tw lr_cls (lr_obj n r sm bt par mag t) = Err IndexError).
Proof.
  unfold copy, serialize, deserialize. go.
  destruct par as [[l u]|]; [|left; reflexivity].
  cbn -[nat_of_v opt_nat].
  destruct (a_shape u) as [|du ur] eqn:Eu; [right; do 2 eexists; auto|].
  destruct (a_shape l) as [|dl lr] eqn:El; [right; do 2 eexists; auto|].
  left. destruct (nat_of_v (opt_nat n)); reflexivity.
Qed.
End T.

(** ** Exactly when the other classes survive *)
Lemma copy_concat_iff tw ax po s t :
  copies tw concat_cls (concat_obj ax po s t) <-> po = VNone /\ s = ".".
Proof.
  split.
  - intros (o' & Hc & Hk & _). unfold copy, serialize, deserialize in Hc.
    assert (Hc' : Ok (concat_obj ax VNone "." t) = Ok o') by (rewrite <- Hc; destruct ax; reflexivity).
    injection Hc' as <-. pose proof (Hk "path_order") as H1. pose proof (Hk "separator") as H2.
    cbn in H1, H2. injection H1 as ->. injection H2 as ->. auto.
  - intros [-> ->]. apply copy_concat.
Qed.

Lemma copy_matmul_iff tw params osh po mag real sep str dm i t :
  leaves_are is_int osh -> leaves_are is_str po -> leaves_are is_str str -> leaves_are is_int dm -> leaves_are is_int i ->
  copies tw matmul_cls (matmul_obj params osh po (VFloat mag) (VBool real) (VStr sep) str dm i t) <-> sep = ".".
Proof.
  intros H1 H2 H3 H4 H5. split; [|intros ->; apply copy_matmul; assumption].
  apply (ser_int tw) in H1. apply (ser_str tw) in H2. apply (ser_str tw) in H3. apply (ser_int tw) in H4. apply (ser_int tw) in H5.
  intros (o' & Hc & Hk & _). unfold copy, serialize, deserialize in Hc.
  assert (Hc' : Ok (matmul_obj params osh po (VFloat mag) (VBool real) (VStr ".") str dm i t) = Ok o').
  { rewrite <- Hc. clear Hc Hk. destruct t; go; [destruct params; go; reflexivity|].
    destruct (serializable tw params) eqn:E; go; unfold einsum_set_hyper, in_hyper; go; destruct params; try discriminate E; go; reflexivity. }
  injection Hc' as <-. pose proof (Hk "separator") as H. cbn in H. injection H as ->. reflexivity.
Qed.

Lemma copy_activation_iff tw a kw t :
  copies tw activation_cls (activation_obj a kw t) <->
  serializable tw (VTup a) = true /\ serializable tw (VDict kw) = true.
Proof.
  split; [|intros [H1 H2]; apply copy_activation; assumption].
  intros (o' & Hc & Hk & _). unfold copy, serialize, deserialize in Hc.
  cbn -[serializable] in Hc.
  destruct (serializable tw (VTup a)) eqn:Ea, (serializable tw (VDict kw)) eqn:Ek; auto; exfalso;
    injection Hc as <-; pose proof (Hk "args") as H1; pose proof (Hk "kwargs") as H2; cbn in H1, H2;
    first [inversion H1; subst; discriminate | inversion H2; subst; discriminate].
Qed.

Lemma copy_lr_never tw n r sm bt par mag t : ~ copies tw lr_cls (lr_obj n r sm bt par mag t).
Proof.
  intros (o' & Hc & _). destruct (copy_lr_fails tw n r sm bt par mag t) as [E | (l & u & _ & _ & E)]; congruence.
Qed.

Lemma copy_aepmm_iff tw n k which sm Ms mag bias t :
  leaves_are is_int n -> leaves_are is_int k -> serializable tw sm = true ->
  copies tw aepmm_cls (aepmm_obj n k which sm Ms mag bias t) <-> Ms = VNone.
Proof.
  intros H1%(ser_int tw) H2%(ser_int tw) H3. split.
  - intros (o' & Hc & Hk & _). unfold copy, serialize, deserialize in Hc.
    assert (Hc' : Ok (aepmm_obj n k which sm VNone mag bias t) = Ok o').
    { rewrite <- Hc. go. reflexivity. }
    injection Hc' as <-. pose proof (Hk "Ms") as H. cbn in H. injection H as ->. reflexivity.
  - intros ->. unfold copies, copy, serialize, deserialize. go. fin.
Qed.

Lemma copy_lnn_iff tw out bias act mag real t :
  leaves_are is_int out ->
  copies tw lnn_cls (lnn_obj out bias act mag real t) <-> act = VNone.
Proof.
  intros H1%(ser_int tw). split.
  - intros (o' & Hc & Hk & _). unfold copy, serialize, deserialize in Hc.
    assert (Hc' : Ok (lnn_obj out bias VNone mag real t) = Ok o').
    { rewrite <- Hc. go. destruct (serializable tw act); go; reflexivity. }
    injection Hc' as <-. pose proof (Hk "activation") as H. cbn in H. injection H as ->. reflexivity.
  - intros ->. unfold copies, copy, serialize, deserialize. go. fin.
Qed.
