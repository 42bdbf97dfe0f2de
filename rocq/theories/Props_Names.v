(** C133: the names of modules in graph models. *)
From Coq Require Import Ascii.
From Verif Require Import Base BaseLemmas TreeUtil Connections NonSeq Edit NonSeqNames NamedProofs Props_Conn.
Local Open Scope string_scope.
Local Open Scope list_scope.

(** the name [k] does what a name should: the model is its module, and keeps the
    new state of the module under its name *)
Definition works (sep : ascii) (uuid : nat -> string) (k : string) : Prop :=
  forall (A Rng M : Type) (call : M -> tree A -> tree A -> bool -> tree A -> Rng -> result (tree A * tree A))
    (m : M) (params data state : tree A) (training : bool) (rng : Rng),
  run_named sep call uuid k m params data training state rng =
    match call m params data training state rng with Ok (out, s) => Ok (out, Dict [(k, s)]) | Err e => Err e end.

(** a name that is not empty, without separator, and does not begin with "output" *)
Definition good_name (sep : ascii) (k : string) : Prop := k <> "" /\ no_sep sep k = true /\ ~ exists r, k = append "output" r.

(** Such names work. *)
Theorem C133_name : forall (sep : ascii) (uuid : nat -> string) (k : string),
  no_sep sep "input" = true -> no_sep sep "output" = true -> good_name sep k -> k <> "input" -> works sep uuid k.
Proof.
  intros sep uuid k Hi Ho (K1 & K2 & K3) K4 A Rng M call m params data state training rng.
  assert (K5 : startswith k "output" = false). { destruct (startswith k "output") eqn:E; [|reflexivity]. apply startswith_iff in E. contradiction. }
  rewrite (run_one sep k Hi Ho K1 K2 K4) by (intros ->; discriminate K5). rewrite K5. destruct (call _ _ _ _ _ _) as [[o s]|]; reflexivity.
Qed.
Print Assumptions C133_name.

(** names like "f0", "12", "007", "-1", "inputs" *)
Definition one_call (m : nat) (p d : tree nat) (training : bool) (s : tree nat) (rng : nat) : result (tree nat * tree nat) :=
  match p, d, s with Leaf a, Leaf b, Leaf c => Ok (Leaf (a * b + m), Leaf (c + b)) | _, _, _ => Err TypeError end.
Example C133_name_example :
  Forall (good_name ".") ["f0"; "12"; "007"; "-1"; "inputs"] /\
  run_named "." one_call uu "inputs" 7 (Leaf 3) (Leaf 10) false (Leaf 5) 0 = Ok (Leaf 37, Dict [("inputs", Leaf 15)]).
Proof.
  split; [|vm_compute; reflexivity]. repeat constructor; try discriminate; intros [r E]; discriminate E.
Qed.

(** A name that begins with "output", like "output_layer": the model silently
    returns a dictionary with the input of the module and its output. *)
Theorem C133_output_names : forall (sep : ascii) (uuid : nat -> string) (r : string) (A Rng M : Type)
    (call : M -> tree A -> tree A -> bool -> tree A -> Rng -> result (tree A * tree A)) m params data training state rng out s,
  no_sep sep "input" = true -> no_sep sep "output" = true -> r <> "" -> no_sep sep r = true ->
  call m params data training state rng = Ok (out, s) ->
  let k := append "output" r in
  run_named sep call uuid k m params data training state rng = Ok (Dict [(k, data); ("output", out)], Dict [(k, s)]).
Proof.
  intros sep uuid r A Rng M call m params data training state rng out s Hi Ho R1 R2 E k.
  assert (K2 : no_sep sep k = true) by (unfold k; rewrite append_no_sep, Ho, R2; reflexivity).
  rewrite (run_one sep k Hi Ho ltac:(discriminate) K2 ltac:(discriminate)), E.
  - replace (startswith k "output") with true; [reflexivity|]. symmetry. apply startswith_iff. exists r. reflexivity.
  - unfold k. intros Ek. change "output" with (append "output" "") in Ek at 2. apply append_inj_l in Ek. contradiction.
Qed.
Print Assumptions C133_output_names.
Example C133_output_names_example : run_named "." one_call uu "output_layer" 7 (Leaf 3) (Leaf 10) false (Leaf 5) 0 =
    Ok (Dict [("output_layer", Leaf 10); ("output", Leaf 37)], Dict [("output_layer", Leaf 15)]).
Proof. vm_compute. reflexivity. Qed.

(** a name with the separator in it is accepted and can never be used *)
Theorem C133_separator : forall (sep : ascii) (uuid : nat -> string) (k : string) (A Rng M : Type)
    (call : M -> tree A -> tree A -> bool -> tree A -> Rng -> result (tree A * tree A)) m params data training state rng,
  no_sep sep "input" = true -> no_sep sep "output" = true -> no_sep sep k = false ->
  is_ok (construct (under_name k m) (wires k)) = true /\
  is_ok (run_named sep call uuid k m params data training state rng) = false.
Proof.
  intros sep uuid k A Rng M call m params data training state rng Hi Ho Hk.
  assert (Ni : String.eqb "input" k = false) by (apply String.eqb_neq; intros <-; congruence).
  assert (No : String.eqb "output" k = false) by (apply String.eqb_neq; intros <-; congruence).
  assert (C : construct (under_name k m) (wires k) = Ok (under_name k m, wires k)).
  { unfold construct, under_name, dmem. cbn [dget]. rewrite Ni, No. reflexivity. }
  unfold run_named. rewrite C. split; [reflexivity|]. cbn [rbind]. unfold nonseq_model, get_execution_order, get_outer_connections.
  assert (P : is_ok (partition_connections sep "input" "output" (under_name k m) (wires k)) = false).
  { unfold partition_connections. destruct (check_double _ _); [reflexivity|]. unfold wires, normalize. cbn [map cval_list fst snd rfold].
    unfold part_entry at 1. cbn [fst snd]. destruct (part_key _ _ _ _ _) as [pk|]; [|reflexivity]. cbn [rbind rmapM].
    assert (V : is_ok (part_val sep "input" "output" (under_name k m) k) = false \/ is_ok (part_key sep "input" "output" (under_name k m) k) = false).
    { unfold part_val, part_key. destruct (under sep k "input") eqn:Ui.
      - left. destruct (under sep k "output") eqn:Uo; [|reflexivity].
        exfalso. unfold under in Ui, Uo. apply orb_true_iff in Ui, Uo.
        assert (I : exists r, k = append "input" r) by (destruct Ui as [Ui|Ui]; [apply startswith_iff in Ui as [r ->]; exists (append (sepS sep) r); reflexivity|apply String.eqb_eq in Ui; exists ""; exact Ui]).
        assert (O : exists r, k = append "output" r) by (destruct Uo as [Uo|Uo]; [apply startswith_iff in Uo as [r ->]; exists (append (sepS sep) r); reflexivity|apply String.eqb_eq in Uo; exists ""; exact Uo]).
        destruct I as [r ->]. destruct O as [r' E]. discriminate E.
      - destruct (under sep k "output") eqn:Uo; [right; reflexivity|]. left.
        unfold getitem. destruct k as [|c k]; [discriminate Hk|]. cbn [slen getitem_fuel no_leaf under_name]. unfold no_leaf at 1.
        pose proof (split1_spec sep (String c k)) as S1. pose proof (split_no_sep sep (String c k)) as F.
        destruct (split sep (String c k)) as [|a l] eqn:Es; [destruct (split_nonempty sep (String c k) Es)|].
        assert (Ea : dget [(String c k, Leaf m)] a = None).
        { cbn [dget]. replace (String.eqb a (String c k)) with false; [reflexivity|]. symmetry. apply String.eqb_neq. intros ->. inversion_clear F. congruence. }
        destruct (split1 sep (String c k)) as [a' rest] eqn:E1. assert (a' = a) as -> by (destruct l; congruence).
        rewrite Ea. reflexivity. }
    destruct V as [V|V].
    - destruct (part_val _ _ _ _ k); [discriminate V|reflexivity].
    - destruct (part_val _ _ _ _ k) as [v|]; [|reflexivity]. cbn [rbind rfold]. unfold part_entry. cbn [fst snd]. destruct (part_key _ _ _ _ k); [discriminate V|reflexivity]. }
  destruct (partition_connections _ _ _ _ _); [discriminate P|reflexivity].
Qed.
Print Assumptions C133_separator.
Example C133_separator_example : no_sep "." "layer.1" = false /\ no_sep "." "conv1." = false.
Proof. split; reflexivity. Qed.

(** the empty name is accepted; the model does not compile *)
Theorem C133_empty : forall (sep : ascii) (uuid : nat -> string) (A Rng M : Type)
    (call : M -> tree A -> tree A -> bool -> tree A -> Rng -> result (tree A * tree A)) m params data training state rng,
  no_sep sep "input" = true -> no_sep sep "output" = true ->
  is_ok (construct (under_name "" m) (wires "")) = true /\ run_named sep call uuid "" m params data training state rng = Err AttributeError.
Proof. intros. split; [reflexivity|]. now apply run_empty. Qed.
Print Assumptions C133_empty.
Example C133_empty_example : no_sep "." "input" = true /\ no_sep "." "output" = true.
Proof. split; reflexivity. Qed.

(** Altogether: which of the names that the constructor accepts work. *)
Theorem C133_works_iff : forall (sep : ascii) (uuid : nat -> string) (k : string),
  no_sep sep "input" = true -> no_sep sep "output" = true -> is_ok (construct (under_name k tt) (wires k)) = true ->
  works sep uuid k <-> good_name sep k.
Proof.
  intros sep uuid k Hi Ho C.
  assert (N : k <> "input" /\ k <> "output") by (split; intros ->; discriminate C). destruct N as [Ni No].
  split; [|intros H; apply C133_name; assumption].
  intros H. specialize (H nat nat nat one_call 7 (Leaf 3) (Leaf 10) (Leaf 5) false 0). cbn [one_call] in H. split; [|split].
  - intros ->. destruct (C133_empty sep uuid nat nat nat one_call 7 (Leaf 3) (Leaf 10) false (Leaf 5) 0 Hi Ho) as [_ E]. rewrite E in H. discriminate H.
  - destruct (no_sep sep k) eqn:E; [reflexivity|].
    destruct (C133_separator sep uuid k nat nat nat one_call 7 (Leaf 3) (Leaf 10) false (Leaf 5) 0 Hi Ho E) as [_ E']. rewrite H in E'. discriminate E'.
  - intros [r ->]. destruct (no_sep sep (append "output" r)) eqn:E.
    + rewrite append_no_sep, Ho in E. cbn [andb] in E.
      assert (R : r <> "") by (intros ->; apply No; reflexivity).
      pose proof (C133_output_names sep uuid r nat nat nat one_call 7 (Leaf 3) (Leaf 10) false (Leaf 5) 0 (Leaf 37) (Leaf 15) Hi Ho R E eq_refl) as E'. cbn zeta in E'.
      rewrite E' in H. discriminate H.
    + destruct (C133_separator sep uuid (append "output" r) nat nat nat one_call 7 (Leaf 3) (Leaf 10) false (Leaf 5) 0 Hi Ho E) as [_ E']. rewrite H in E'. discriminate E'.
Qed.
Print Assumptions C133_works_iff.
Example C133_works_iff_example : is_ok (construct (under_name "output_layer" tt) (wires "output_layer")) = true /\ is_ok (construct (under_name "m" tt) (wires "m")) = true.
Proof. split; reflexivity. Qed.

(** Every name that the constructor accepts works. *)
Definition C133_always : Prop := forall k, is_ok (construct (under_name k tt) (wires k)) = true -> works "." uu k.
Theorem C133_output_layer_refuted : ~ C133_always.
Proof.
  intros H. specialize (H "output_layer" eq_refl). apply C133_works_iff in H; [|reflexivity|reflexivity|reflexivity].
  destruct H as (_ & _ & H). apply H. exists "_layer". reflexivity.
Qed.
Print Assumptions C133_output_layer_refuted.

(** the reserved names are refused by the constructor, whatever else the model contains *)
Theorem C133_reserved : forall (M : Type) (d : dict (tree M)) conns k x, k = "input" \/ k = "output" -> In (k, x) d ->
  construct (Dict d) conns = Err ValueError.
Proof.
  intros M d conns k x Hk HI. assert (D : dmem d k = true).
  { unfold dmem. induction d as [|[k' y] d IH]; [destruct HI|]. cbn [dget]. destruct (String.eqb k k') eqn:E; [reflexivity|]. apply IH. destruct HI as [HI|HI]; [injection HI as -> _; rewrite String.eqb_refl in E; discriminate E|exact HI]. }
  unfold construct. destruct Hk as [ -> | -> ]; rewrite D; [reflexivity|]. destruct (dmem d "input"); reflexivity.
Qed.
Print Assumptions C133_reserved.
Example C133_reserved_example : In ("output", Leaf 2) [("m", Leaf 1); ("output", Leaf 2)].
Proof. right. left. reflexivity. Qed.
(** ... but they can be added to a model afterwards, which then cannot run *)
Theorem C133_added_refuted : exists (h : heap nat) (m : model) k h' m', construct (to_tree (hget h (ref m))) (wires k) = Ok (to_tree (hget h (ref m)), wires k) /\
  run "u" h m (Append (Leaf 7) (Some k)) = (h', m', Ok None) /\ to_tree (hget h' (ref m')) = under_name k 7 /\ (k = "input" \/ k = "output") /\
  nonseq_model "." one_call uu (to_tree (hget h' (ref m'))) (wires k) (Dict [(k, Leaf 3)]) (Leaf 10) false (Dict [(k, Leaf 5)]) 0 = Err ValueError.
Proof.
  exists [CDict []], (mk_model 0 false), "output". do 2 eexists. split; [reflexivity|]. split; [vm_compute; reflexivity|]. split; [reflexivity|]. split; [right; reflexivity|]. vm_compute. reflexivity.
Qed.
Print Assumptions C133_added_refuted.
