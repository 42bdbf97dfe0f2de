(** A graph model with one module, evaluated step by step for every name. *)
From Coq Require Import Ascii.
From Verif Require Import Base BaseLemmas TreeUtil TreeProofs Resolve Connections ConnSpec ConnProofs NonSeq NonSeqNames.
Local Open Scope string_scope.
Local Open Scope list_scope.

Lemma append_no_sep sep s t : no_sep sep (append s t) = no_sep sep s && no_sep sep t.
Proof. induction s as [|c s IH]; [reflexivity|]. cbn. rewrite IH. apply andb_assoc. Qed.
Lemma under_plain sep s key : no_sep sep s = true -> under sep s key = String.eqb s key.
Proof.
  intros H. unfold under. destruct (startswith s (append key (sepS sep))) eqn:E; [|reflexivity]. exfalso.
  apply startswith_iff in E as [t ->]. rewrite !append_no_sep in H. cbn in H. rewrite Ascii.eqb_refl in H. cbn in H.
  destruct (no_sep sep key); discriminate H.
Qed.
Lemma removesuffix_nil s : removesuffix s "" = s.
Proof. rewrite <- (append_nil_r s) at 1. apply removesuffix_append. Qed.
Lemma removeprefix_self s : removeprefix s s = "".
Proof. rewrite <- (append_nil_r s) at 1. apply removeprefix_append. Qed.

Lemma kahn_step g al f n q d o : kahn g al (S f) (n :: q) d o =
  (let '(d', q') := fold_left (relax al) (neighbors g n) (d, q) in kahn g al f q' d' (o ++ [n])).
Proof. reflexivity. Qed.

Section One.
Variable sep : ascii.
Variable k : string.
Hypothesis Hsi : no_sep sep "input" = true.
Hypothesis Hso : no_sep sep "output" = true.
Hypothesis Kne : k <> "".
Hypothesis Kns : no_sep sep k = true.
Hypothesis Ki : k <> "input".
Hypothesis Ko : k <> "output".

Definition plain (s : string) : Prop := s <> "" /\ no_sep sep s = true.
Lemma plain_k : plain k. Proof. split; assumption. Qed.
Lemma plain_i : plain "input". Proof. split; [discriminate|assumption]. Qed.
Lemma plain_o : plain "output". Proof. split; [discriminate|assumption]. Qed.
Lemma plain_clean s : plain s -> clean sep s.
Proof. intros [H1 H2]. split; [exact H1|]. rewrite split_no_sep_id by exact H2. constructor; [exact H1|constructor]. Qed.
Lemma plain_cclean s : plain s -> cclean sep [s].
Proof. intros [H1 H2]. constructor; [split; assumption|constructor]. Qed.
Lemma plain_split1 s : plain s -> split1 sep s = (s, None).
Proof. intros [_ H]. rewrite split1_spec, split_no_sep_id by exact H. reflexivity. Qed.
Lemma unpack_plain s : plain s -> unpack2 sep (append s (append (dsep sep) "")) = Ok (s, "").
Proof. intros H. exact (unpack2_spec sep [s] [] (plain_cclean s H) (Forall_nil _)). Qed.
Lemma tidy_plain s : plain s -> tidy sep (append s (append (dsep sep) "")) = s.
Proof. intros H. exact (tidy_spec sep [s] [] (plain_cclean s H) (Forall_nil _) ltac:(discriminate)). Qed.

Lemma get_plain {X} (is_leaf : tree X -> bool) early d s (x : tree X) : plain s -> is_leaf (Dict d) = false -> dget d s = Some x ->
  getitem sep is_leaf early (Dict d) s = Ok (x, "").
Proof.
  intros H L D. pose proof (plain_split1 s H) as S1. unfold getitem. destruct s as [|c r]; [destruct (proj1 H eq_refl)|]. cbn [slen]. cbn [getitem_fuel].
  rewrite L, S1. cbn iota beta. rewrite D. reflexivity.
Qed.
Lemma set_plain {X} d s (x : tree X) : plain s -> setitem sep no_leaf (Dict d) s x = Ok (Dict (dset d s x)).
Proof.
  intros H. pose proof (plain_split1 s H) as S1. unfold setitem. destruct s as [|c r]; [destruct (proj1 H eq_refl)|]. cbn [slen]. cbn [setitem_fuel].
  unfold no_leaf. rewrite S1. reflexivity.
Qed.

Lemma e_kk : String.eqb k k = true. Proof. apply String.eqb_refl. Qed.
Lemma e_ki : String.eqb k "input" = false. Proof. apply String.eqb_neq, Ki. Qed.
Lemma e_ik : String.eqb "input" k = false. Proof. apply String.eqb_neq. intros E. exact (Ki (eq_sym E)). Qed.
Lemma e_ko : String.eqb k "output" = false. Proof. apply String.eqb_neq, Ko. Qed.
Lemma e_ok : String.eqb "output" k = false. Proof. apply String.eqb_neq. intros E. exact (Ko (eq_sym E)). Qed.
Lemma e_io : String.eqb "input" "output" = false. Proof. reflexivity. Qed.
Lemma e_oi : String.eqb "output" "input" = false. Proof. reflexivity. Qed.
Lemma e_ii : String.eqb "input" "input" = true. Proof. reflexivity. Qed.
Lemma e_oo : String.eqb "output" "output" = true. Proof. reflexivity. Qed.
Local Ltac eqs := rewrite ?e_kk, ?e_ki, ?e_ik, ?e_ko, ?e_ok, ?e_io, ?e_oi, ?e_ii, ?e_oo.

Definition mark (s : string) : string := append s (append (dsep sep) "").
Lemma mark_inj s t : mark s = mark t -> s = t.
Proof. apply append_inj_r. Qed.
Lemma e_mark : String.eqb (mark k) (mark "input") = false.
Proof. apply String.eqb_neq. intros E. exact (Ki (mark_inj _ _ E)). Qed.

Lemma part_one {M} (m : M) : partition_connections sep "input" "output" (under_name k m) (wires k) =
  Ok [(mark "input", [mark k]); (mark k, [mark "output"])].
Proof.
  unfold partition_connections, wires, normalize. cbn [map cval_list fst snd]. unfold check_double. cbn [existsb fst snd].
  rewrite !(clean_no_double sep) by (apply plain_clean; first [apply plain_k|apply plain_i|apply plain_o]). cbn [orb].
  cbn [rfold]. unfold part_entry. cbn [fst snd rmapM].
  assert (G : forall e, getitem sep no_leaf e (under_name k m) k = Ok (Leaf m, "")).
  { intros e. apply get_plain; [apply plain_k|reflexivity|]. cbn [dget]. eqs. reflexivity. }
  assert (Pi : part_key sep "input" "output" (under_name k m) "input" = Ok (mark "input")).
  { unfold part_key. rewrite under_plain by exact Hsi. eqs. rewrite removeprefix_self. reflexivity. }
  assert (Pk : part_key sep "input" "output" (under_name k m) k = Ok (mark k)).
  { unfold part_key. rewrite !under_plain by exact Kns. eqs. rewrite G. cbn [rbind]. rewrite removesuffix_nil.
    rewrite (rstrip_id sep) by (apply clean_ends, plain_clean, plain_k). reflexivity. }
  assert (Vk : part_val sep "input" "output" (under_name k m) k = Ok (mark k)).
  { unfold part_val. rewrite !under_plain by exact Kns. eqs. rewrite G. cbn [rbind]. rewrite removesuffix_nil.
    rewrite removesuffix_sep_clean by (apply clean_ends, plain_clean, plain_k). reflexivity. }
  assert (Vo : part_val sep "input" "output" (under_name k m) "output" = Ok (mark "output")).
  { unfold part_val. rewrite !under_plain by exact Hso. eqs. rewrite removeprefix_self. reflexivity. }
  rewrite Pi, Vk. cbn [rbind dset]. rewrite Pk, Vo. cbn [rbind dset]. rewrite e_mark. reflexivity.
Qed.

Lemma outer_one {M} (m : M) : get_outer_connections sep "input" "output" (under_name k m) (wires k) = Ok [("input", [k]); (k, ["output"])].
Proof.
  unfold get_outer_connections. rewrite part_one. cbn [rbind rfold]. unfold outer_entry.
  assert (H : forall s, plain s -> hd EmptyString (split sep (mark s)) = s).
  { intros s [_ Hs]. unfold mark, dsep. cbn [append]. rewrite split_app_sep by exact Hs. reflexivity. }
  assert (S : forall s, plain s -> (if startswith (mark s) "input" || startswith (mark s) "output" then Ok (hd EmptyString (split sep (mark s)))
      else let* (o, _) := unpack2 sep (mark s) in Ok o) = Ok s).
  { intros s Hs. rewrite H by exact Hs. destruct (startswith _ _ || startswith _ _); [reflexivity|]. unfold mark. rewrite unpack_plain by exact Hs. reflexivity. }
  rewrite (S "input" plain_i), (S k plain_k). cbn [rmapM]. unfold mark. rewrite !unpack_plain by first [apply plain_k|apply plain_o]. cbn [rbind dset dget fold_left].
  eqs. reflexivity.
Qed.

Lemma order_one {M} (m : M) : get_execution_order sep (under_name k m) (wires k) = Ok ["input"; k; "output"].
Proof.
  unfold get_execution_order. rewrite outer_one. cbn [rbind]. unfold dmem. cbn [dget]. eqs. cbn [negb].
  unfold resolve_connections, dfs_from.
  assert (N : forall l1 l2, num_edges [("input", [k]); (k, [l1])] = 2 /\ num_edges (l2 ++ []) = num_edges l2) by (intros; split; [reflexivity|rewrite app_nil_r; reflexivity]).
  assert (R : reverse_graph [("input", [k]); (k, ["output"])] = [(k, ["input"]); ("output", [k])]).
  { unfold reverse_graph. cbn [fold_left]. unfold add_rev, neighbors. cbn [dget dset app]. eqs. cbn [dget dset app]. eqs. reflexivity. }
  rewrite R.
  assert (D1 : dfs [("input", [k]); (k, ["output"])] (2 + num_edges [("input", [k]); (k, ["output"])]) ["input"] [] = Ok ["input"; k; "output"]).
  { cbn [num_edges map snd length list_sum fold_right Nat.add]. do 8 (cbn [dfs mem_str existsb dget app filter rev negb orb]; unfold neighbors; eqs). reflexivity. }
  assert (D2 : dfs [(k, ["input"]); ("output", [k])] (2 + num_edges [(k, ["input"]); ("output", [k])]) ["output"] [] = Ok ["output"; k; "input"]).
  { cbn [num_edges map snd length list_sum fold_right Nat.add]. do 8 (cbn [dfs mem_str existsb dget app filter rev negb orb]; unfold neighbors; eqs). reflexivity. }
  rewrite D1, D2. cbn [rbind].
  assert (F : filter (fun v => mem_str v ["output"; k; "input"]) ["input"; k; "output"] = ["input"; k; "output"]).
  { cbn [filter mem_str existsb]. eqs. reflexivity. }
  rewrite F.
  cbn [num_edges map snd length list_sum fold_right Nat.add].
  set (g := [("input", [k]); (k, ["output"])]). set (al := ["input"; k; "output"]).
  assert (K : in_degrees g = [(k, 1%Z); ("output", 1%Z)]).
  { unfold in_degrees, g. cbn [fold_left]. unfold deg_add, deg_get. cbn [dget dset]. eqs. reflexivity. }
  assert (N1 : neighbors g "input" = [k]) by (unfold neighbors, g; cbn [dget]; eqs; reflexivity).
  assert (N2 : neighbors g k = ["output"]) by (unfold neighbors, g; cbn [dget]; eqs; reflexivity).
  assert (N3 : neighbors g "output" = []) by (unfold neighbors, g; cbn [dget]; eqs; reflexivity).
  assert (R1 : relax al ([(k, 1%Z); ("output", 1%Z)], []) k = ([(k, 0%Z); ("output", 1%Z)], [k])).
  { unfold relax, al. cbn [mem_str existsb]. eqs. cbn [orb]. unfold deg_add, deg_get. cbn [dget dset]. eqs. cbn [dget]. eqs. reflexivity. }
  assert (R2 : relax al ([(k, 0%Z); ("output", 1%Z)], []) "output" = ([(k, 0%Z); ("output", 0%Z)], ["output"])).
  { unfold relax, al. cbn [mem_str existsb]. eqs. cbn [orb]. unfold deg_add, deg_get. cbn [dget dset]. eqs. cbn [dget]. eqs. reflexivity. }
  rewrite K. rewrite kahn_step, N1. cbn [fold_left]. match goal with |- context [relax al ?x k] => replace (relax al x k) with ([(k, 0%Z); ("output", 1%Z)], [k]) by exact (eq_sym R1) end. cbn iota beta. rewrite kahn_step, N2. cbn [fold_left]. match goal with |- context [relax al ?x "output"] => replace (relax al x "output") with ([(k, 0%Z); ("output", 0%Z)], ["output"]) by exact (eq_sym R2) end. cbn iota beta.
  rewrite kahn_step, N3. cbn [fold_left app]. cbn iota beta. cbn [kahn rbind]. reflexivity.
Qed.

Lemma unpack_mark s : plain s -> unpack2 sep (mark s) = Ok (s, "").
Proof. apply unpack_plain. Qed.
Lemma tidy_mark s : plain s -> tidy sep (mark s) = s.
Proof. apply tidy_plain. Qed.
Lemma conc_one {M} (uuid : nat -> string) (m : M) : concretize_connections sep uuid "input" "output" (under_name k m) (wires k) = Ok [("input", [k]); (k, ["output"])].
Proof.
  unfold concretize_connections. rewrite part_one. cbn [rbind].
  assert (B : by_outer sep [(mark "input", [mark k]); (mark k, [mark "output"])] = Ok [(k, [("", mark "input")]); ("output", [("", mark k)])]).
  { unfold by_outer. cbn [rfold fst snd]. unfold by_outer_val. rewrite (unpack_mark k plain_k), (unpack_mark "output" plain_o). cbn [rbind].
    unfold dpush. cbn [dget dset app]. eqs. reflexivity. }
  rewrite B. cbn [rbind].
  assert (C : rfold (conc_outer sep uuid) [(k, [("", mark "input")]); ("output", [("", mark k)])] (0, []) = Ok (0, [(k, [""]); ("output", [""])])) by reflexivity.
  rewrite C. cbn [rbind].
  assert (D : map (fun e : string * list string => (fst e, dedup sep (snd e) [] (snd e))) [(k, [""]); ("output", [""])] = [(k, [""]); ("output", [""])]) by reflexivity.
  rewrite D.
  assert (R : fold_left (rebuild_entry sep [(k, [("", mark "input")]); ("output", [("", mark k)])]) [(k, [""]); ("output", [""])] [] = [(mark "input", [mark k]); (mark k, [mark "output"])]).
  { cbn [fold_left]. unfold rebuild_entry. cbn [dget]. eqs. cbn [map snd combine fold_left fst]. unfold dpush. cbn [dget dset app]. rewrite e_mark. reflexivity. }
  rewrite R. cbn [fold_left fst snd map]. rewrite !tidy_mark by first [apply plain_k|apply plain_i|apply plain_o]. cbn [dset]. eqs. reflexivity.
Qed.

Definition two {X} (x y : tree X) : tree X := Dict [(k, x); ("output", y)].
Lemma extend_two {X} (eqX : X -> X -> bool) (x y : tree X) : extend_structure eqX sep None [k; "output"] (FillList [x; y]) = Ok (two x y).
Proof.
  unfold extend_structure. cbn [length Nat.eqb negb filter]. replace (String.eqb k "") with false by (symmetry; apply String.eqb_neq, Kne).
  cbn [negb map filter String.eqb]. rewrite (plain_split1 k plain_k), (plain_split1 "output" plain_o). cbn [fst forallb].
  change (isdigit "output") with false. rewrite andb_false_r. cbn [combine rfold].
  rewrite (split_no_sep_id sep k Kns). cbn [extend_walk extend_node dget dset rbind]. rewrite (split_no_sep_id sep "output" Hso). cbn [extend_walk extend_node dget dset rbind]. eqs. reflexivity.
Qed.
Lemma strip_plain s : plain s -> strip sep s = s.
Proof. intros H. apply strip_clean, plain_clean, H. Qed.
Lemma no_slot s : plain s -> startswith s (append "output" (sepS sep)) = false.
Proof.
  intros [_ H]. destruct (startswith s (append "output" (sepS sep))) eqn:E; [|reflexivity]. exfalso. apply startswith_iff in E as [t ->].
  rewrite !append_no_sep in H. cbn [sepS no_sep append] in H. rewrite Ascii.eqb_refl in H. cbn [negb andb] in H. rewrite andb_false_r in H. discriminate H.
Qed.
Lemma place_one {M} (uuid : nat -> string) (m : M) : place_connections sep uuid "input" "output" (under_name k m) (wires k) =
  Ok (two (Leaf "input") (Leaf k), if startswith k "output" then two (Leaf "input") (Leaf k) else Leaf k).
Proof.
  unfold place_connections. rewrite conc_one. cbn [rbind].
  assert (R : reverse_conn [("input", [k]); (k, ["output"])] = [(k, ["input"]); ("output", [k])]).
  { unfold reverse_conn. cbn [fold_left fst snd]. unfold dpush. cbn [dget dset app]. eqs. reflexivity. }
  rewrite R. cbn [single_sources existsb snd length Nat.ltb Nat.leb orb map hd rbind fst].
  assert (Rp : forall s, plain s -> strip sep (removeprefix s (append "output" (sepS sep))) = s).
  { intros s Hs. unfold removeprefix. rewrite (no_slot s Hs). apply strip_plain, Hs. }
  set (os := append "output" (sepS sep)) in *.
  cbn [filter fst]. change (startswith "output" "output") with true.
  unfold os. rewrite !no_slot by first [apply plain_k|apply plain_o]. fold os. cbn [negb map fst snd].
  rewrite !strip_plain by first [apply plain_k|apply plain_o].
  destruct (startswith k "output") eqn:E.
  - cbn [map fst snd]. rewrite !Rp by first [apply plain_k|apply plain_o]. rewrite !extend_two. reflexivity.
  - eqs. rewrite extend_two. reflexivity.
Qed.

Theorem run_one {A Rng M} (call : M -> tree A -> tree A -> bool -> tree A -> Rng -> result (tree A * tree A)) (uuid : nat -> string) m params data training state rng :
  run_named sep call uuid k m params data training state rng =
  (let* (o, s) := call m params data training state rng in
   Ok (if startswith k "output" then Dict [(k, data); ("output", o)] else o, Dict [(k, s)])).
Proof.
  unfold run_named. assert (C : construct (under_name k m) (wires k) = Ok (under_name k m, wires k)).
  { unfold construct, under_name, dmem. cbn [dget]. eqs. reflexivity. }
  rewrite C. cbn [rbind]. unfold nonseq_model. rewrite order_one. cbn [rbind].
  assert (B : body ["input"; k; "output"] = [k]).
  { unfold body. cbn [filter]. unfold reserved_name. eqs. reflexivity. }
  assert (MC : module_callables sep (under_name k m) ["input"; k; "output"] = Ok [None; Some m]).
  { unfold module_callables. rewrite B. cbn [rmapM]. unfold look, under_name. rewrite (get_plain _ _ _ k (Leaf m)); [reflexivity|apply plain_k|reflexivity|]. cbn [dget]. eqs. reflexivity. }
  rewrite MC. cbn [rbind].
  assert (MD : module_input_dependencies sep uuid (under_name k m) (wires k) = Ok ([NoneT; Leaf "input"], if startswith k "output" then two (Leaf "input") (Leaf k) else Leaf k)).
  { unfold module_input_dependencies. rewrite order_one. cbn [rbind]. rewrite place_one. cbn [rbind]. rewrite B. cbn [rmapM]. unfold look, two.
    rewrite (get_plain _ _ _ k (Leaf "input")); [reflexivity|apply plain_k|reflexivity|]. cbn [dget]. eqs. reflexivity. }
  rewrite MD. cbn [rbind]. unfold nonseq_callable.
  assert (ES : empty_slots sep ["input"; k; "output"] = Ok (@Dict A [("input", NoneT); (k, NoneT); ("output", NoneT)])).
  { unfold empty_slots, extend_structure. cbn [length repeat Nat.eqb negb filter]. replace (String.eqb k "") with false by (symmetry; apply String.eqb_neq, Kne).
    cbn [negb map filter String.eqb]. rewrite (plain_split1 k plain_k), (plain_split1 "input" plain_i), (plain_split1 "output" plain_o). cbn [fst forallb].
    change (isdigit "input") with false. cbn [andb combine rfold].
    rewrite (split_no_sep_id sep "input" Hsi). cbn [extend_walk extend_node dget dset rbind]. rewrite (split_no_sep_id sep k Kns). cbn [extend_walk extend_node dget dset rbind]. eqs. cbn [dget dset rbind].
    rewrite (split_no_sep_id sep "output" Hso). cbn [extend_walk extend_node dget dset rbind]. eqs. reflexivity. }
  rewrite ES. cbn [rbind]. rewrite (set_plain _ "input" data plain_i). cbn [dset]. eqs. cbn [rbind combine rfold].
  unfold node_step at 1. change (reserved_name "input") with true. cbn iota. cbn [rbind].
  unfold node_step at 1. unfold reserved_name at 1. eqs. cbn [orb]. cbn [tmapM]. unfold look at 1.
  rewrite (get_plain _ _ _ "input" data plain_i) by (try reflexivity; cbn [dget]; eqs; reflexivity). cbn [rmap rbind].
  unfold look at 1. rewrite (get_plain _ _ _ k params plain_k) by (try reflexivity; cbn [dget]; eqs; reflexivity). cbn [rmap rbind].
  unfold look at 1. rewrite (get_plain _ _ _ k state plain_k) by (try reflexivity; cbn [dget]; eqs; reflexivity). cbn [rmap rbind].
  cbn [fst].
  destruct (call m params data training state rng) as [[o s]|e]; [|reflexivity]. cbn [rbind].
  rewrite !(set_plain _ k _ plain_k). cbn [rbind dset]. eqs. cbn [rbind rfold].
  destruct (startswith k "output").
  - unfold two. cbn [tmapM]. unfold look.
    rewrite (get_plain _ _ _ "input" data plain_i) by (try reflexivity; cbn [dget]; eqs; reflexivity).
    rewrite (get_plain _ _ _ k o plain_k) by (try reflexivity; cbn [dget]; eqs; reflexivity). reflexivity.
  - cbn [tmapM]. unfold look. rewrite (get_plain _ _ _ k o plain_k) by (try reflexivity; cbn [dget]; eqs; reflexivity). reflexivity.
Qed.
End One.

(** the empty name *)
Lemma run_empty {A Rng M} sep (call : M -> tree A -> tree A -> bool -> tree A -> Rng -> result (tree A * tree A)) (uuid : nat -> string) m params data training state rng :
  no_sep sep "input" = true -> no_sep sep "output" = true ->
  run_named sep call uuid "" m params data training state rng = Err AttributeError.
Proof.
  intros Hi Ho. unfold run_named. change (construct (under_name "" m) (wires "")) with (Ok (under_name "" m, wires "")). cbn [rbind].
  assert (O : get_outer_connections sep "input" "output" (under_name "" m) (wires "") = Ok [("input", [""]); ("", ["output"])]).
  { unfold get_outer_connections. assert (P : partition_connections sep "input" "output" (under_name "" m) (wires "") = Ok [(mark sep "input", [mark sep ""]); (mark sep "", [mark sep "output"])]).
    { unfold partition_connections, wires, normalize. cbn [map cval_list fst snd]. unfold check_double. cbn [existsb fst snd].
      rewrite (clean_no_double sep "input") by exact (plain_clean _ _ (plain_i sep Hi)). rewrite (clean_no_double sep "output") by exact (plain_clean _ _ (plain_o sep Ho)). change (has_double sep "") with false. cbn [orb rfold].
      unfold part_entry. cbn [fst snd rmapM].
      assert (Pi : part_key sep "input" "output" (under_name "" m) "input" = Ok (mark sep "input")).
      { unfold part_key. rewrite under_plain by exact Hi. cbn iota. change (String.eqb "input" "input") with true. cbn iota. rewrite removeprefix_self. reflexivity. }
      assert (Vo : part_val sep "input" "output" (under_name "" m) "output" = Ok (mark sep "output")).
      { unfold part_val. rewrite under_plain by exact Ho. change (String.eqb "output" "output") with true. cbn iota. rewrite removeprefix_self. reflexivity. }
      rewrite Pi, Vo. change (part_val sep "input" "output" (under_name "" m) "") with (Ok (mark sep "")). change (part_key sep "input" "output" (under_name "" m) "") with (Ok (mark sep "")).
      cbn [rbind dset]. replace (String.eqb (mark sep "") (mark sep "input")) with false; [reflexivity|]. symmetry. apply String.eqb_neq. intros E. apply mark_inj in E. discriminate E. }
    rewrite P. cbn [rbind rfold]. unfold outer_entry.
    assert (U : unpack2 sep (mark sep "") = Ok ("", "")). { unfold unpack2, mark, dsep, sepS. cbn [append split2]. rewrite Ascii.eqb_refl. reflexivity. }
    assert (S : hd EmptyString (split sep (mark sep "input")) = "input"). { generalize "input" Hi. intros s Hs. unfold mark, dsep. cbn [append]. rewrite (split_app_sep sep s) by exact Hs. reflexivity. }
    assert (S' : startswith (mark sep "input") "input" = true) by reflexivity.
    rewrite S', S. cbn [orb].
    assert (W : (if startswith (mark sep "") "input" || startswith (mark sep "") "output" then Ok (hd EmptyString (split sep (mark sep ""))) else let* (o, _) := unpack2 sep (mark sep "") in Ok o) = Ok "").
    { rewrite U. destruct (startswith _ _ || startswith _ _); [|reflexivity]. unfold mark, dsep. cbn [append split]. rewrite Ascii.eqb_refl. reflexivity. }
    rewrite W. cbn [rbind rmapM]. rewrite U. cbn [rbind]. rewrite (unpack_mark sep "output" (plain_o sep Ho)). reflexivity. }
  unfold nonseq_model, get_execution_order. rewrite O. reflexivity.
Qed.
