(** C137: the state of a model is put back where it was taken. *)
From Verif Require Import Base ModState.
Local Open Scope list_scope.

Section Spec.
Context {O P St X Y : Type}.
Context (m_params : O -> P) (m_get : O -> St) (m_ready : O -> bool) (m_set : O -> option St -> result O).
Context (forward : list P -> X -> list (option St) -> result (Y * list (option St))).

(** Setting the state that a module has changes nothing. *)
Definition keeps_own : Prop := forall o, m_set o (Some (m_get o)) = Ok o.
(** A module takes every state, has it afterwards, and is otherwise the same. *)
Definition takes_states : Prop := forall o s, exists o', m_set o (Some s) = Ok o' /\
  m_get o' = s /\ m_params o' = m_params o /\ m_ready o' = m_ready o.
(** The callable returns a state for every module. *)
Definition keeps_count : Prop := forall ps x st y st', forward ps x (map Some st) = Ok (y, st') ->
  exists st1, st' = map Some st1 /\ length st1 = length st.
(** The states handed from call to call by hand. *)
Inductive by_hand (ps : list P) : list X -> list (option St) -> list Y -> list (option St) -> Prop :=
| hand_done st : by_hand ps [] st [] st
| hand_call x xs st y st1 ys st2 : forward ps x st = Ok (y, st1) -> by_hand ps xs st1 ys st2 ->
    by_hand ps (x :: xs) st (y :: ys) st2.
(** Every module of the model is ready (for sequential models nothing is asked). *)
Definition all_ready (k : kind) (ms : list nat) (h : nat -> O) : Prop :=
  match k with Sequential => True | Graph order => forall r, In r ms \/ In r order -> m_ready (h r) = true end.
End Spec.

(** Two heaps with the same objects. *)
Definition same {O} (h h' : nat -> O) : Prop := forall r, h r = h' r.

Section Proofs.
Context {O P St X Y : Type}.
Context (m_params : O -> P) (m_get : O -> St) (m_ready : O -> bool) (m_set : O -> option St -> result O).
Context (forward : list P -> X -> list (option St) -> result (Y * list (option St))).

Lemma set_own ms : forall (st : list (option St)) (h h0 : nat -> O), same h h0 ->
  Forall2 (fun r s => m_set (h0 r) s = Ok (h0 r)) ms st -> exists h', set_each m_set ms st h = (h', Ok tt) /\ same h' h0.
Proof.
  induction ms as [|r ms IH]; intros st h h0 Hs H; inversion H as [|? s ? st1 H1 H2]; subst; cbn [set_each].
  - exists h. split; [reflexivity|exact Hs].
  - rewrite (Hs r), H1. apply (IH st1 (write h r (h0 r)) h0); [|exact H2]. intros q. unfold write. destruct (Nat.eqb q r) eqn:E; [|apply Hs].
    apply Nat.eqb_eq in E as ->. reflexivity.
Qed.

Lemma own_states k ms h st : keeps_own m_get m_set -> get_state m_get m_ready k ms h = Ok st ->
  (forall r, In r ms -> k <> Sequential -> m_ready (h r) = false -> m_set (h r) None = Ok (h r)) ->
  Forall2 (fun r s => m_set (h r) s = Ok (h r)) ms st.
Proof.
  intros K G N. destruct k as [|order]; cbn [get_state] in G.
  - injection G as <-. clear N. induction ms as [|r ms IH]; cbn; constructor; [apply K|exact IH].
  - destruct (forallb _ order); [|discriminate]. injection G as <-. induction ms as [|r ms IH]; cbn; constructor.
    + destruct (m_ready (h r)) eqn:E; [apply K|]. apply (N r (or_introl eq_refl)); [discriminate|exact E].
    + apply IH. intros q Hq. apply N. right. exact Hq.
Qed.

Lemma set_all ms : takes_states m_params m_get m_ready m_set -> NoDup ms -> forall (st : list St) h, length st = length ms ->
  exists h', set_each m_set ms (map Some st) h = (h', Ok tt) /\ map (fun r => m_get (h' r)) ms = st /\
    (forall r, ~ In r ms -> h' r = h r) /\ forall r, m_params (h' r) = m_params (h r) /\ m_ready (h' r) = m_ready (h r).
Proof.
  intros T. induction ms as [|r ms IH]; intros ND [|s st] h L; cbn in L; try discriminate; cbn [map set_each].
  - exists h. repeat split; reflexivity.
  - inversion ND as [|? ? Hr Hn]; subst. destruct (T (h r) s) as (o & E & G & EP & ER). rewrite E.
    destruct (IH Hn st (write h r o) ltac:(lia)) as (h' & Es & Em & Ef & Ek). exists h'. split; [exact Es|]. split; [|split].
    + rewrite Em. f_equal. rewrite (Ef r Hr). unfold write. rewrite Nat.eqb_refl. exact G.
    + intros q Hq. rewrite Ef by (intros H; apply Hq; right; exact H). unfold write.
      destruct (Nat.eqb q r) eqn:Eq; [|reflexivity]. apply Nat.eqb_eq in Eq as ->. destruct Hq. left. reflexivity.
    + intros q. destruct (Ek q) as [-> ->]. unfold write. destruct (Nat.eqb q r) eqn:Eq; [|split; reflexivity].
      apply Nat.eqb_eq in Eq as ->. split; assumption.
Qed.

Lemma get_ready k ms h : all_ready m_ready k ms h -> get_state m_get m_ready k ms h = Ok (map Some (map (fun r => m_get (h r)) ms)).
Proof.
  intros A. destruct k as [|order]; cbn [get_state all_ready] in *.
  - rewrite map_map. reflexivity.
  - assert (F : forallb (fun r => m_ready (h r)) order = true) by (apply forallb_forall; intros r Hr; apply A; right; exact Hr).
    rewrite F, map_map. f_equal. apply map_ext_in. intros r Hr. rewrite (A r (or_introl Hr)). reflexivity.
Qed.
End Proofs.

(** Writing back what was read changes no module: sequential models, and graph
    models of which every module is ready or ignores None.  Missing: graph models
    with modules outside the execution order that are not ready. *)
Theorem C137_put_back_partial {O St} (m_get : O -> St) m_ready m_set k ms h st :
  keeps_own m_get m_set -> get_state m_get m_ready k ms h = Ok st ->
  (forall r, In r ms -> k <> Sequential -> m_ready (h r) = false -> m_set (h r) None = Ok (h r)) ->
  exists h', set_state m_set ms (Some st) h = (h', Ok tt) /\ same h' h.
Proof.
  intros K G N. pose proof (own_states m_get m_ready m_set k ms h st K G N) as F.
  assert (L : length ms = length st) by (clear - F; induction F; cbn; congruence).
  destruct (set_own m_set ms st h h (fun _ => eq_refl) F) as (h' & E & Hs).
  exists h'. cbn [set_state]. rewrite L, Nat.eqb_refl, E. split; [reflexivity|exact Hs].
Qed.

(** Calls with update_state give what the callable gives with the states handed on
    by hand, and leave the last states in the modules, if no module object is used
    in two places (and every module of a graph model is ready). *)
Theorem C137_threading_partial {O P St X Y} (m_params : O -> P) (m_get : O -> St) m_ready m_set
    (forward : list P -> X -> list (option St) -> result (Y * list (option St))) k ms :
  takes_states m_params m_get m_ready m_set -> keeps_count forward -> NoDup ms ->
  forall xs h st ys st', all_ready m_ready k ms h -> get_state m_get m_ready k ms h = Ok st ->
  by_hand forward (map (fun r => m_params (h r)) ms) xs st ys st' ->
  exists h', calls m_params m_get m_ready m_set forward true k ms xs h = (h', Ok ys) /\
    get_state m_get m_ready k ms h' = Ok st' /\ forall r, ~ In r ms -> h' r = h r.
Proof.
  intros T KC ND. induction xs as [|x xs IH]; intros h st ys st' A G B; inversion B as [|? ? ? y st1 ys1 st2 F B']; subst; cbn [calls].
  - exists h. split; [reflexivity|]. split; [exact G|]. reflexivity.
  - assert (Gs := G). rewrite (get_ready m_get m_ready k ms h A) in Gs. injection Gs as <-.
    unfold call. rewrite G, F. destruct (KC _ _ _ _ _ F) as (s1 & -> & L). rewrite map_length in L.
    destruct (set_all m_params m_get m_ready m_set ms T ND s1 h L) as (h1 & E & M1 & Fr & K1).
    cbn [set_state]. rewrite map_length, L, Nat.eqb_refl, E.
    assert (A1 : all_ready m_ready k ms h1).
    { destruct k as [|order]; [exact I|]. intros r Hr. destruct (K1 r) as [_ ->]. apply A. exact Hr. }
    assert (P1 : map (fun r => m_params (h1 r)) ms = map (fun r => m_params (h r)) ms) by (apply map_ext; intros r; apply K1).
    destruct (IH h1 (map Some s1) ys1 st' A1) as (h2 & C & G2 & F2).
    + rewrite (get_ready m_get m_ready k ms h1 A1), M1. reflexivity.
    + rewrite P1. exact B'.
    + exists h2. rewrite C. split; [reflexivity|]. split; [exact G2|]. intros r Hr. rewrite (F2 r Hr). exact (Fr r Hr).
Qed.

(** A call without update_state changes no module. *)
Theorem C137_without_update {O P St X Y} (m_params : O -> P) (m_get : O -> St) m_ready m_set
    (forward : list P -> X -> list (option St) -> result (Y * list (option St))) k ms xs h :
  fst (calls m_params m_get m_ready m_set forward false k ms xs h) = h.
Proof.
  induction xs as [|x xs IH]; cbn [calls]; [reflexivity|].
  assert (C : fst (call m_params m_get m_ready m_set forward false k ms x h) = h).
  { unfold call. destruct (get_state _ _ k ms h) as [st|e]; [|reflexivity]. destruct (forward _ x st) as [[y st']|e]; reflexivity. }
  destruct (call _ _ _ _ _ false k ms x h) as [h1 r]. cbn [fst] in C. subst h1.
  destruct r as [[y st]|e]; [|reflexivity]. destruct (calls _ _ _ _ _ false k ms xs h) as [h2 r']. exact IH.
Qed.

(** A module that counts its calls: a flag for ready, and the count.  None sets the
    count to zero ([self.count = state or 0]). *)
Definition counter : Type := bool * nat.
Definition c_set (o : counter) (s : option nat) : result counter := Ok (fst o, match s with Some n => n | None => 0 end).
(** A module that insists on a state. *)
Definition strict_set (o : counter) (s : option nat) : result counter := match s with Some n => Ok (fst o, n) | None => Err TypeError end.
(** Counters in a chain: every connected module adds its count to the number. *)
Definition c_forward (_ : list unit) (x : nat) (st : list (option nat)) : result (nat * list (option nat)) :=
  Ok (fold_left (fun a s => match s with Some n => a + n | None => a end) st x, map (option_map S) st).

(** Not for graph models with a module that is not ready and not connected: it is
    given None. *)
Definition put_back_always : Prop := forall (m_set : counter -> option nat -> result counter) k ms h st,
  keeps_own snd m_set -> get_state snd fst k ms h = Ok st -> exists h', set_state m_set ms (Some st) h = (h', Ok tt) /\ same h' h.
Definition ex_heap (r : nat) : counter := match r with 0 => (true, 5) | _ => (false, 7) end.
Theorem C137_put_back_refuted : ~ put_back_always.
Proof.
  intros H. destruct (H c_set (Graph [0]) [0; 1] ex_heap [Some 5; None]) as (h' & E & S).
  - intros [b n]. reflexivity.
  - reflexivity.
  - cbn in E. injection E as <-. specialize (S 1). discriminate S.
Qed.
(** With a module that does not accept None the state cannot be written back at all,
    so that calls with update_state raise. *)
Theorem C137_none_refuted :
  ~ forall (m_set : counter -> option nat -> result counter) forward k ms (x : nat) h st y st',
      keeps_own snd m_set -> (forall o n, exists o', m_set o (Some n) = Ok o') -> get_state snd fst k ms h = Ok st ->
      forward (map (fun _ => tt) ms) x st = Ok (y, st') -> length st' = length st ->
      snd (call (Y := nat) (fun _ => tt) snd fst m_set forward true k ms x h) = Ok (y, st').
Proof.
  intros H. specialize (H strict_set c_forward (Graph [0]) [0; 1] 100 ex_heap [Some 5; None] 105 [Some 6; None]).
  assert (E : snd (call (fun _ => tt) snd fst strict_set c_forward true (Graph [0]) [0; 1] 100 ex_heap) = Ok (105, [Some 6; None])).
  { apply H; try reflexivity; [intros [b n]; reflexivity|intros o n; eexists; reflexivity]. }
  vm_compute in E. discriminate E.
Qed.

(** Not for a module object that is used in two places: its two states are written
    into the same object. *)
Definition threading_always : Prop := forall (m_set : counter -> option nat -> result counter) (forward : list unit -> nat -> list (option nat) -> result (nat * list (option nat))) k ms (xs : list nat) h st ys st',
  takes_states (fun _ => tt) snd fst m_set -> keeps_count forward -> all_ready fst k ms h -> get_state snd fst k ms h = Ok st ->
  by_hand forward (map (fun _ => tt) ms) xs st ys st' ->
  exists h', calls (fun _ => tt) snd fst m_set forward true k ms xs h = (h', Ok ys).
(** Modules that remember the sum of their inputs and add it to the next ones, one
    after another. *)
Fixpoint sums (x : nat) (st : list (option nat)) : nat * list (option nat) :=
  match st with
  | [] => (x, [])
  | None :: st => let (y, st') := sums x st in (y, None :: st')
  | Some a :: st => let (y, st') := sums (x + a) st in (y, Some (a + x) :: st')
  end.
Definition sum_forward (_ : list unit) (x : nat) (st : list (option nat)) : result (nat * list (option nat)) := Ok (sums x st).
Lemma sum_count : keeps_count sum_forward.
Proof.
  intros ps x st y st' F. unfold sum_forward in F. injection F as F. revert x y st' F.
  induction st as [|a st IH]; intros x y st' F; cbn in F.
  - injection F as <- <-. exists []. split; reflexivity.
  - destruct (sums (x + a) (map Some st)) as [y1 st1] eqn:E. injection F as <- <-.
    destruct (IH _ _ _ E) as (st2 & -> & L). exists ((a + x) :: st2). cbn. split; [reflexivity|]. f_equal. exact L.
Qed.
Theorem C137_threading_refuted : ~ threading_always.
Proof.
  intros H. destruct (H c_set sum_forward Sequential [0; 0] [1; 1] ex_heap [Some 5; Some 5] [11; 18] [Some 7; Some 18]) as (h' & E).
  - intros [b n] s. exists (b, s). repeat split.
  - exact sum_count.
  - exact I.
  - reflexivity.
  - repeat (econstructor; try reflexivity).
  - vm_compute in E. discriminate E.
Qed.

Lemma c_takes : takes_states (fun _ : counter => tt) snd fst c_set.
Proof. intros [b n] s. exists (b, s). repeat split. Qed.
Lemma c_count : keeps_count c_forward.
Proof.
  intros ps x st y st' F. unfold c_forward in F. injection F as _ <-. exists (map S st). rewrite !map_map, map_length. split; reflexivity.
Qed.
Example C137_put_back_partial_example :
  keeps_own (St := nat) snd c_set /\ get_state snd fst Sequential [0; 1; 0] ex_heap = Ok [Some 5; Some 7; Some 5].
Proof. split; [intros [b n]; reflexivity|reflexivity]. Qed.
Example C137_threading_partial_example :
  NoDup [0; 1] /\ all_ready fst Sequential [0; 1] ex_heap /\
  by_hand c_forward [tt; tt] [100; 200] [Some 5; Some 7] [112; 214] [Some 7; Some 9] /\
  snd (calls (fun _ => tt) snd fst c_set c_forward true Sequential [0; 1] [100; 200] ex_heap) = Ok [112; 214].
Proof.
  split; [repeat constructor; cbn; lia|]. split; [exact I|]. split; [repeat (econstructor; try reflexivity)|reflexivity].
Qed.
Example C137_without_update_example :
  snd (calls (fun _ => tt) snd fst c_set c_forward false Sequential [0; 1] [100; 200] ex_heap) = Ok [112; 212].
Proof. reflexivity. Qed.

Print Assumptions C137_put_back_partial.
Print Assumptions C137_threading_partial.
Print Assumptions C137_without_update.
Print Assumptions C137_put_back_refuted.
Print Assumptions C137_none_refuted.
Print Assumptions C137_threading_refuted.
