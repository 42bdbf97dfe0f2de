(** Property C126: the announced output shape of a module given by a function. *)
From Coq Require Import ZArith Arith Lia Permutation.
From Verif Require Import Base BaseLemmas TreeUtil TreeSpec TreeProofs NonSeqSpec NonSeqProofs NdArray Serial SerialSpec SerialProofs SerialFile ScalerProofs EigenProofs Reshape ReshapeSpec ReshapeProofs
  ReshapeMain Layers LayersProofs Shapes FuncMod FuncModSpec.
Local Open Scope string_scope.
Local Open Scope list_scope.
Local Open Scope nat_scope.

(* ------------------------------------------------------------------ *)
(** ** Lemmas *)
Lemma one_sample {V} n i (data : tree (arr V)) : samples n data -> exists x, trel (sample_of i) data x.
Proof.
  intros B. destruct (jm_from eq data data (trel_refl data) (fun a => Ok (mk_arr (1 :: tl (shp a)) (firstn (prod (tl (shp a))) (skipn (i * prod (tl (shp a))) (dat a))))) (sample_of i)) as (x & _ & T).
  - intros a b H <-. eexists. split; [reflexivity|]. destruct (B a H) as [s E]. exists n, s. split; [exact E|]. now rewrite E.
  - now exists x.
Qed.
Lemma batch_samples {V} n shapes (data : tree (arr V)) : trel (batch_of n) shapes data -> samples n data.
Proof. intros T a H. apply trel_flip in T. destruct (map_has_leaf _ _ _ T a H) as (s & _ & E). now exists s. Qed.
Lemma samples_leading {V} n (t : tree (arr V)) : samples n t -> forall a, has_leaf t a -> leading a = Some n.
Proof. intros B a H. destruct (B a H) as [s E]. unfold leading. now rewrite E. Qed.
Lemma cut_tail n s : cut (n :: s) (Some 1%Z) None = s.
Proof.
  unfold cut, clamp. cbn [length]. rewrite (proj2 (Z.ltb_ge 1 0)) by lia. replace (Z.to_nat (Z.min (Z.max 1 0) (Z.of_nat (S (length s))))) with 1 by lia.
  replace (S (length s) - 1) with (length s) by lia. cbn [skipn]. apply firstn_all.
Qed.
Lemma announce {V} n (out : tree (arr V)) : samples n out -> exists o, jmapM (fun a => get_shape (Sl (Some 1%Z) None) (shp a)) out = Ok o /\ trel (fun s a => shp a = n :: s) o out.
Proof.
  intros B. destruct (jm_from eq out out (trel_refl out) (fun a => get_shape (Sl (Some 1%Z) None) (shp a)) (fun a s => shp a = n :: s)) as (o & E & T).
  - intros a b H <-. destruct (B a H) as [s E]. cbn [get_shape]. rewrite E, cut_tail. now exists s.
  - exists o. split; [exact E|]. now apply trel_flip in T.
Qed.
Lemma dummy_ok {V} (zero : V) shapes : exists dummy, jmapM (fun s => Ok (trial zero s)) shapes = Ok dummy /\ trel (batch_of 1) shapes dummy.
Proof. apply (jm_from eq shapes shapes (trel_refl shapes)). intros s b _ <-. eexists. split; reflexivity. Qed.
Lemma alike_sym {V} (a b : tree (arr V)) : trel alike a b -> trel alike b a.
Proof. intros T. apply trel_flip in T. eapply trel_impl; [|exact T]. unfold alike. auto. Qed.
Lemma sample_dummy {V} n i shapes (data x dummy : tree (arr V)) : trel (batch_of n) shapes data -> trel (sample_of i) data x -> trel (batch_of 1) shapes dummy -> trel alike dummy x.
Proof.
  intros T1 T2 T3. assert (T4 : trel (batch_of 1) shapes x).
  { eapply trel_comp; [|exact T1|exact T2]. unfold batch_of. intros s a b E (m & s' & E' & ->). rewrite E in E'. now injection E' as _ <-. }
  apply trel_flip in T3. eapply trel_comp; [|exact T3|exact T4]. unfold batch_of, alike. congruence.
Qed.

(* ------------------------------------------------------------------ *)
(** ** The announced shape *)

Lemma solid_none {X} (t : tree X) : solid t -> none_in t = false.
Proof.
  induction t as [x| |d IH|l IH|l IH] using tree_ind2; intros S; cbn [none_in]; [reflexivity|inversion S| | |].
  - inversion S as [|? H| |]; subst. clear S. induction d as [|[k t] d IHd]; [reflexivity|]. inversion IH as [|? ? H1 H2]; subst. cbn [snd] in H1. rewrite (H1 (H k t (or_introl eq_refl))).
    cbn [orb]. apply IHd; [exact H2|]. intros k' t' H'. apply (H k'). now right.
  - inversion S as [| |? H|]; subst. clear S. induction l as [|t l IHl]; [reflexivity|]. inversion IH as [|? ? H1 H2]; subst. rewrite (H1 (H t (or_introl eq_refl))).
    cbn [orb]. apply IHl; [exact H2|]. intros t' H'. apply H. now right.
  - inversion S as [| | |? _ H]; subst. clear S. induction l as [|t l IHl]; [reflexivity|]. inversion IH as [|? ? H1 H2]; subst. rewrite (H1 (H t (or_introl eq_refl))).
    cbn [orb]. apply IHl; [exact H2|]. intros t' H'. apply H. now right.
Qed.

(** For a function that treats every sample on its own and decides by shapes,
    the module accepts exactly the shapes it can be called with, and the
    announced shape is the produced one, for every number of samples. *)
Theorem C126_shapes_partial {V St} (zero : V) f n shapes data (st : St) : per_sample f -> shapes_decide f -> 1 <= n -> solid shapes -> trel (batch_of n) shapes data ->
  (forall o, func_shape zero f shapes = Ok o -> exists out, func_call f data st = Ok (out, st) /\ trel (batch_of n) o out) /\
  (forall out st', func_call f data st = Ok (out, st') -> st' = st /\ exists o, func_shape zero f shapes = Ok o /\ trel (batch_of n) o out).
Proof.
  intros [P1 P2] D L NN T. apply solid_none in NN. pose proof (batch_samples _ _ _ T) as B. destruct (dummy_ok zero shapes) as (dummy & Ed & Td).
  unfold func_shape, func_call. rewrite NN, Ed. cbn [rbind].
  assert (main : forall out, f data = Ok out -> check_batch data out = Ok tt /\ exists od o, f dummy = Ok od /\ jmapM (fun a => get_shape (Sl (Some 1%Z) None) (shp a)) od = Ok o /\ trel (batch_of n) o out).
  { intros out E. destruct (one_sample n 0 data B) as (x & Tx). destruct (P1 n data out 0 x L B E L Tx) as (Bo & y & Ey & Ty).
    split; [apply (check_batch_ok n); apply samples_leading; assumption|].
    assert (Tal : trel alike x dummy) by (apply alike_sym; exact (sample_dummy n 0 shapes data x dummy T Tx Td)). destruct (D x dummy y Tal Ey) as (od & Eod & Tod).
    destruct (announce n out Bo) as (o & _ & To).
    assert (T1 : trel (fun s (b : arr V) => shp b = 1 :: s) o y).
    { eapply trel_comp; [|exact To|exact Ty]. intros s a b Ea (m & s' & Ea' & ->). rewrite Ea in Ea'. now injection Ea' as _ <-. }
    assert (T2 : trel (fun s (b : arr V) => shp b = 1 :: s) o od).
    { eapply trel_comp; [|exact T1|exact Tod]. unfold alike. congruence. }
    destruct (jm_from _ _ _ T2 (fun a => get_shape (Sl (Some 1%Z) None) (shp a)) eq) as (o' & E' & T').
    { intros s a _ Ea. exists s. cbn [get_shape]. now rewrite Ea, cut_tail. }
    exists od, o'. split; [exact Eod|]. split; [exact E'|]. apply trel_flip in T'. eapply trel_comp; [|exact T'|exact To]. unfold batch_of. congruence. }
  split.
  - intros o E. destruct (f dummy) as [od|] eqn:Eod; [|discriminate]. destruct (P2 n data L B) as (out & Eo).
    { intros i x Hi Tx. destruct (D dummy x od) as (y & Ey & _); [exact (sample_dummy n i shapes data x dummy T Tx Td)|exact Eod|]. now exists y. }
    destruct (main out Eo) as (C & od' & o' & [= <-] & E' & T'). rewrite E in E'. injection E' as <-. exists out. rewrite Eo. cbn [rbind]. rewrite C. now split.
  - intros out st' E. destruct (f data) as [out'|] eqn:Eo; [|discriminate]. cbn [rbind] in E. destruct (main out' eq_refl) as (C & od & o & Eod & E' & T'). rewrite C in E. cbn [rbind] in E. injection E as <- <-.
    split; [reflexivity|]. exists o. rewrite Eod. now split.
Qed.

(** compile lets exactly those shapes pass. *)
Theorem C126_compile {V St} (zero : V) f n shapes data (st : St) : per_sample f -> shapes_decide f -> 1 <= n -> solid shapes -> trel (batch_of n) shapes data ->
  (func_compile zero f shapes = Ok tt <-> exists out, func_call f data st = Ok (out, st)).
Proof.
  intros P D L S T. destruct (C126_shapes_partial zero f n shapes data st P D L S T) as [H1 H2]. unfold func_compile. split.
  - intros E. apply rbind_ok in E as (o & E & _). destruct (H1 o E) as (out & H & _). now exists out.
  - intros (out & E). destruct (H2 out st E) as (_ & o & -> & _). reflexivity.
Qed.

(** Whatever the error of [f] on the trial input, it is reported as a RuntimeError. *)
Theorem C126_error {V} (zero : V) f shapes e : solid shapes -> func_compile zero f shapes = Err e -> e = RuntimeError.
Proof.
  intros S. unfold func_compile, func_shape. rewrite (solid_none _ S). destruct (dummy_ok zero shapes) as (dummy & -> & _). cbn [rbind]. destruct (f dummy) as [od|e']; [|now intros [= <-]].
  destruct (jm_from eq od od (trel_refl od) (fun a => get_shape (Sl (Some 1%Z) None) (shp a)) (fun _ _ => True)) as (o & -> & _); [|discriminate].
  intros a b _ <-. eexists. split; [reflexivity|exact I].
Qed.

(* ------------------------------------------------------------------ *)
(** ** Functions that qualify *)
Definition after {V} (g f : tree (arr V) -> result (tree (arr V))) (t : tree (arr V)) := let* m := f t in g m.
Lemma sample_alike {V} i (m x y : tree (arr V)) : trel (sample_of i) m x -> trel (sample_of i) m y -> trel alike x y.
Proof. intros T1 T2. apply trel_flip in T1. eapply trel_comp; [|exact T1|exact T2]. unfold alike. intros a b c (n & s & E & ->) (n' & s' & E' & ->). rewrite E in E'. now injection E' as _ <-. Qed.
(** Two such functions one after the other. *)
Theorem C126_after {V} (f g : tree (arr V) -> result (tree (arr V))) : per_sample f -> shapes_decide f -> per_sample g -> shapes_decide g ->
  per_sample (after g f) /\ shapes_decide (after g f).
Proof.
  intros [F1 F2] DF [G1 G2] DG. unfold after. split; [split|].
  - intros n data out i x L B E Hi Tx. apply rbind_ok in E as (m & Em & E). destruct (F1 n data m i x L B Em Hi Tx) as (Bm & y & Ey & Ty).
    destruct (G1 n m out i y L Bm E Hi Ty) as (Bo & z & Ez & Tz). split; [exact Bo|]. exists z. rewrite Ey. now split.
  - intros n data L B H. destruct (F2 n data L B) as (m & Em).
    { intros i x Hi Tx. destruct (H i x Hi Tx) as (y & E). apply rbind_ok in E as (y' & E & _). now exists y'. }
    destruct (one_sample n 0 data B) as (x0 & T0). destruct (F1 n data m 0 x0 L B Em L T0) as (Bm & _).
    destruct (G2 n m L Bm) as (out & Eo); [|exists out; now rewrite Em].
    intros i r Hi Tr. destruct (one_sample n i data B) as (x & Tx). destruct (F1 n data m i x L B Em Hi Tx) as (_ & y & Ey & Ty).
    destruct (H i x Hi Tx) as (z & E). rewrite Ey in E. cbn [rbind] in E. destruct (DG y r z) as (z' & Ez' & _); [eapply sample_alike; eauto|exact E|]. now exists z'.
  - intros a b oa T E. apply rbind_ok in E as (ma & Ea & E). destruct (DF a b ma T Ea) as (mb & Eb & Tm). destruct (DG ma mb oa Tm E) as (ob & Eo & To). exists ob. rewrite Eb. now split.
Qed.

(** A function of every entry. *)
Definition entries {V} (h : V -> V) (t : tree (arr V)) : result (tree (arr V)) := jmapM (fun a => Ok (amap h a)) t.
Lemma entries_rel {V} (h : V -> V) (t out : tree (arr V)) : entries h t = Ok out -> trel (fun a b => b = amap h a) t out.
Proof.
  intros E. destruct (jm_from eq t t (trel_refl t) (fun a => Ok (amap h a)) (fun a b => b = amap h a)) as (o & E' & T); [intros a b _ <-; eexists; split; reflexivity|].
  unfold entries in E. rewrite E in E'. now injection E' as <-.
Qed.
Lemma entries_ok {V} (h : V -> V) (t : tree (arr V)) : exists out, entries h t = Ok out.
Proof. destruct (jm_from eq t t (trel_refl t) (fun a => Ok (amap h a)) (fun a b => True)) as (o & E' & T); [intros a b _ <-; eexists; split; [reflexivity|exact I]|]. now exists o. Qed.
Theorem C126_entries {V} (h : V -> V) : per_sample (entries h) /\ shapes_decide (entries h).
Proof.
  split; [split|].
  - intros n data out i x L B E Hi Tx. apply entries_rel in E as T. split.
    + intros b Hb. apply trel_flip in T. destruct (map_has_leaf _ _ _ T b Hb) as (a & Ha & ->). exact (B a Ha).
    + destruct (entries_ok h x) as (y & Ey). exists y. split; [exact Ey|]. apply entries_rel in Ey. apply trel_flip in T.
      eapply (trel_comp (fun b a => b = amap h a) (fun a c => exists b, sample_of i a b /\ c = amap h b)); [|exact T|eapply trel_comp; [|exact Tx|exact Ey]]; cbv beta.
      * intros b a c -> (b' & (m & s & Ea & ->) & ->). exists m, s. split; [exact Ea|]. unfold amap. cbn [shp dat]. now rewrite skipn_map, firstn_map.
      * intros a b c H ->. now exists b.
  - intros. apply entries_ok.
  - intros a b oa T E. apply entries_rel in E. destruct (entries_ok h b) as (ob & Eb). exists ob. split; [exact Eb|]. apply entries_rel in Eb. apply trel_flip in E.
    eapply (trel_comp (fun o (a : arr V) => o = amap h a) (fun a o => exists b, alike a b /\ o = amap h b)); [|exact E|eapply trel_comp; [|exact T|exact Eb]]; unfold alike; cbv beta.
    + intros x y z -> (b' & H & ->). exact H.
    + intros x y z H ->. now exists y.
Qed.
(** The first entry of a tuple, as in [data[0]]. *)
Definition first {V} (t : tree (arr V)) : result (tree (arr V)) := match t with Tup (x :: _) => Ok x | Tup [] => Err IndexError | _ => Err TypeError end.
Theorem C126_first {V} : per_sample (@first V) /\ shapes_decide (@first V).
Proof.
  split; [split|].
  - intros n data out i x L B E Hi Tx. destruct data as [a| |d|l|l]; try discriminate. destruct l as [|t l]; [discriminate|]. injection E as <-. inversion Tx as [| | |? m F|]; subst. inversion F as [|? u ? m' H F']; subst.
    split; [|exists u; now split]. intros b Hb. apply B. apply (hl_tup _ t); [now left|exact Hb].
  - intros n data L B H. destruct (one_sample n 0 data B) as (x & Tx). destruct (H 0 x L Tx) as (y & E). destruct Tx as [? ? ?| | |l m F|]; try discriminate. destruct F; [discriminate|]. now eexists.
  - intros a b oa T E. destruct T as [? ? ?| | |l m F|]; try discriminate. destruct F as [|t u l m H F]; [discriminate|]. injection E as <-. exists u. now split.
Qed.

Example C126_example :
  let f := after (@entries nat S) first in
  let shapes := Tup [Dict [("a", Leaf [2]); ("b", Leaf [])]; Leaf [7]] in
  let data := Tup [Dict [("a", Leaf (mk_arr [3; 2] [1; 2; 3; 4; 5; 6])); ("b", Leaf (mk_arr [3] [7; 8; 9]))]; Leaf (mk_arr [3; 7] (repeat 0 21))] in
  per_sample f /\ shapes_decide f /\ solid shapes /\ trel (batch_of 3) shapes data /\
  func_shape 0 f shapes = Ok (Dict [("a", Leaf [2]); ("b", Leaf [])]) /\
  func_call f data tt = Ok (Dict [("a", Leaf (mk_arr [3; 2] [2; 3; 4; 5; 6; 7])); ("b", Leaf (mk_arr [3] [8; 9; 10]))], tt) /\
  func_compile 0 f (Leaf [2]) = Err RuntimeError /\ func_compile 0 f (Tup [NoneT]) = Err TypeError.
Proof.
  cbv zeta. pose proof (C126_after first (@entries nat S) (proj1 C126_first) (proj2 C126_first) (proj1 (C126_entries S)) (proj2 (C126_entries S))) as [H1 H2].
  split; [exact H1|]. split; [exact H2|]. split.
  - apply so_tup; [discriminate|]. intros t [<-|[<-|[]]]; [|constructor]. apply so_dict. intros k t [[= _ <-]|[[= _ <-]|[]]]; constructor.
  - split; [|now repeat split]. constructor. constructor; [|constructor; [constructor; reflexivity|constructor]].
    eapply tr_dict; [reflexivity|]. constructor; [split; [reflexivity|constructor; reflexivity]|]. constructor; [split; [reflexivity|constructor; reflexivity]|constructor].
Qed.

(* ------------------------------------------------------------------ *)
(** ** Functions that do not *)

(** A trial run with one sample cannot tell the axis of the samples from an
    axis of length one: [numpy.squeeze]. *)
Definition squeeze {V} (t : tree (arr V)) : result (tree (arr V)) :=
  jmapM (fun a => Ok (mk_arr (filter (fun n => negb (n =? 1)) (shp a)) (dat a))) t.
Definition announced_always : Prop := forall (f : tree (arr nat) -> result (tree (arr nat))) n shapes data out o,
  solid shapes -> 1 <= n -> trel (batch_of n) shapes data -> func_shape 0 f shapes = Ok o -> func_call f data tt = Ok (out, tt) -> trel (batch_of n) o out.
Theorem C126_squeeze_refuted : ~ announced_always.
Proof.
  intros H. specialize (H squeeze 2 (Leaf [3]) (Leaf (mk_arr [2; 3] [1; 2; 3; 4; 5; 6])) (Leaf (mk_arr [2; 3] [1; 2; 3; 4; 5; 6])) (Leaf [])).
  assert (T : trel (batch_of 2) (Leaf []) (Leaf (mk_arr [2; 3] [1; 2; 3; 4; 5; 6]))).
  { apply H; [constructor|lia|constructor; reflexivity|reflexivity|reflexivity]. }
  inversion T as [? ? E| | | |]; subst. discriminate E.
Qed.
(** A function that mixes the samples passes the trial run of one sample and
    fails when it is called: [numpy.sum(x, axis=0, keepdims=True)]. *)
Definition mixing (t : tree (arr nat)) : result (tree (arr nat)) :=
  jmapM (fun a => match shp a with n :: s => Ok (mk_arr (1 :: s) (map (fun j => fold_right Nat.add 0 (map (fun i => nth (i * prod s + j) (dat a) 0) (seq 0 n))) (seq 0 (prod s)))) | [] => Err ValueError end) t.
Lemma each_decides {V} (g : arr V -> result (arr V)) : (forall a b, alike a b -> forall oa, g a = Ok oa -> exists ob, g b = Ok ob /\ alike oa ob) -> shapes_decide (jmapM g).
Proof.
  intros H a b oa T E. apply jmapM_inv in E. assert (T1 : trel (fun x y => g x = Ok y) a oa) by (eapply jrel_trel; [|exact E]; auto).
  apply trel_flip in T1. assert (T2 : trel (fun y z => exists x, g x = Ok y /\ alike x z) oa b) by (eapply trel_comp; [|exact T1|exact T]; cbv beta; intros x y z H1 H2; now exists y).
  destruct (jm_from _ _ _ T2 g alike) as (ob & Eb & Tb); [|now exists ob]. intros y z _ (x & H1 & H2). exact (H x z H2 y H1).
Qed.
Definition compiled_runs_always : Prop := forall (f : tree (arr nat) -> result (tree (arr nat))) n shapes data,
  shapes_decide f -> solid shapes -> 1 <= n -> trel (batch_of n) shapes data -> func_compile 0 f shapes = Ok tt -> exists out, func_call f data tt = Ok (out, tt).
Theorem C126_mixing_refuted : ~ compiled_runs_always.
Proof.
  intros H. destruct (H mixing 2 (Leaf [3]) (Leaf (mk_arr [2; 3] [1; 2; 3; 4; 5; 6]))) as (out & E); [|constructor|lia|constructor; reflexivity|reflexivity|discriminate E].
  apply each_decides. intros a b E. unfold alike in *. rewrite <- E. destruct (shp a); [discriminate|]. intros oa [= <-]. eexists. split; reflexivity.
Qed.

Print Assumptions C126_shapes_partial.
Print Assumptions C126_mixing_refuted.
