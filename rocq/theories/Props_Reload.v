(** C140: a load that fails. *)
From Verif Require Import Base BaseLemmas Reload.
Local Open Scope list_scope.
Local Open Scope nat_scope.

Section Facts.
Context {V C O SM Sh Op K N E : Type}.
Context (veqb : V -> V -> bool) (current : V) (construct : C -> result O) (revive : bool -> O -> SM -> O * result unit)
        (oready : O -> bool) (settle : list O -> E -> list O * result unit).
Notation model := (@model O Sh Op K N).
Notation saved := (@saved V C SM Sh Op K N E).
Notation deserialize := (deserialize veqb current construct revive settle).
Notation is_ready := (is_ready oready).

(** The modules of the file: every one was made and took its entries. *)
Definition came_back (strict : bool) (d : saved) (os : list O) : Prop :=
  exists fresh, Forall2 (fun c o => construct c = Ok o) (s_classes d) fresh /\
    length fresh = length (s_mods d) /\
    forall i o s, nth_error fresh i = Some o -> nth_error (s_mods d) i = Some s ->
      exists o1, revive strict o s = (o1, Ok tt) /\ nth_error os i = Some o1.
(** The model knows no shape of its input or of its output. *)
Definition shapeless (m : model) : Prop := r_in m = None \/ r_out m = None.

Lemma shapeless_unready m : shapeless m -> is_ready m = false.
Proof.
  unfold Reload.is_ready. intros [-> | ->]; rewrite ?andb_false_r; [|reflexivity]. destruct (r_out m); reflexivity.
Qed.
Lemma make_ok cs : forall os, make construct cs = Ok os -> Forall2 (fun c o => construct c = Ok o) cs os.
Proof.
  induction cs as [|c cs IH]; cbn; intros os H; [injection H as <-; constructor|].
  apply rbind_ok in H as (o & Ho & H). apply rbind_ok in H as (os' & H' & H). injection H as <-. constructor; auto.
Qed.
Lemma revive_all_ok strict os : forall ss os1, length os = length ss -> revive_all revive strict os ss = (os1, Ok tt) ->
  length os1 = length os /\
  forall i o s, nth_error os i = Some o -> nth_error ss i = Some s -> exists o1, revive strict o s = (o1, Ok tt) /\ nth_error os1 i = Some o1.
Proof.
  induction os as [|o os IH]; intros [|s ss] os1 Hl H; try discriminate; cbn in H.
  - injection H as <-. split; [reflexivity|]. intros [|i] ? ? E1; discriminate.
  - destruct (revive strict o s) as [o1 [[]|e]] eqn:R; [|discriminate]. destruct (revive_all revive strict os ss) as [os2 r] eqn:A. injection H as <- ->.
    cbn in Hl. destruct (IH ss os2 ltac:(lia) A) as [L IH']. split; [cbn; lia|]. intros [|i] o' s' E1 E2; cbn in *.
    + injection E1 as <-. injection E2 as <-. eauto.
    + eauto.
Qed.

(** After a load that raised an exception the model cannot be called, unless
    everything came back and only the model's own parameters or states were
    refused. What is missing: that the model is as it was; see below. *)
Theorem C140_partial strict (m m' : model) (d : saved) e : deserialize strict m d = (m', Err e) ->
  (shapeless m' /\ is_ready m' = false /\ forall X Y (f : model -> X -> result Y) x, call oready f m' x = Err RuntimeError) \/
  (exists os, came_back strict d os /\ settle os (s_rest d) = (r_mods m', Err e)).
Proof.
  intros H.
  assert (G : shapeless m' \/ (exists os, came_back strict d os /\ settle os (s_rest d) = (r_mods m', Err e))).
  { unfold Reload.deserialize in H. destruct (negb (veqb current (s_package d)) && strict); [injection H as <- _; left; left; reflexivity|].
    destruct (make construct (s_classes d)) as [os|e1] eqn:M; [|injection H as <- _; left; left; reflexivity].
    destruct (Nat.eqb_spec (length os) (length (s_mods d))) as [Hl|_]; cbn [negb] in H; [|injection H as <- _; left; left; reflexivity].
    destruct (revive_all revive strict os (s_mods d)) as [os1 [[]|e1]] eqn:R; [|injection H as <- _; left; left; reflexivity].
    destruct (length os1 =? s_structure d); cbn [negb] in H; [|injection H as <- _; left; left; reflexivity].
    destruct (s_key d) as [k|e1]; [|injection H as <- _; left; left; reflexivity].
    assert (OW : forall o, own_entries veqb current settle strict (mk_model os1 None None o k (s_name d)) d = (m', Err e) ->
      shapeless m' \/ (exists os, came_back strict d os /\ settle os (s_rest d) = (r_mods m', Err e))).
    { intros o. unfold own_entries. destruct (negb (veqb current (s_self_package d)) && strict); [intros X; injection X as <- _; left; left; reflexivity|].
      destruct (s_in d) as [i|]; [|intros X; injection X as <- _; left; left; reflexivity].
      destruct (s_out d) as [u|]; [|intros X; injection X as <- _; left; right; reflexivity]. cbn [r_mods r_opt r_key r_name].
      destruct (settle os1 (s_rest d)) as [os2 r] eqn:T. intros X. injection X as <- ->. right. exists os1. split; [|exact T].
      exists os. split; [apply make_ok; exact M|]. split; [exact Hl|]. apply (revive_all_ok strict os (s_mods d) os1 Hl R). }
    destruct (s_opt d) as [[o|e1]|]; [apply (OW (Some o)); exact H|injection H as <- _; left; left; reflexivity|apply (OW None); exact H]. }
  destruct G as [G|G]; [left|right; exact G]. pose proof (shapeless_unready m' G) as U. split; [exact G|]. split; [exact U|].
  intros X Y f x. unfold call. rewrite U. reflexivity.
Qed.

(** A file of another version, refused because of strict_package_version=True,
    or one with a class that is not there: modules, key and name stay; the
    shapes and the optimiser state are lost. *)
Theorem C140_early strict (m : model) (d : saved) :
  (strict = true /\ veqb current (s_package d) = false) \/ is_ok (make construct (s_classes d)) = false ->
  exists e, deserialize strict m d = (mk_model (r_mods m) None None None (r_key m) (r_name m), Err e).
Proof.
  unfold Reload.deserialize. intros [[-> H]|H].
  - rewrite H. cbn. eexists. reflexivity.
  - destruct (negb _ && strict); [eexists; reflexivity|]. destruct (make construct (s_classes d)); [discriminate|]. eexists. reflexivity.
Qed.

(** A load that raised nothing gave the model everything in the file: nothing was
    missing or refused, and nothing of the model before is left. *)
Theorem C140_complete strict (m m' : model) (d : saved) : deserialize strict m d = (m', Ok tt) ->
  (exists os, came_back strict d os /\ length os = s_structure d /\ settle os (s_rest d) = (r_mods m', Ok tt)) /\
  s_in d = Some (r_in m') /\ s_out d = Some (r_out m') /\ s_key d = Ok (r_key m') /\ r_name m' = s_name d /\
  match s_opt d with Some o => exists v, o = Ok v /\ r_opt m' = Some v | None => r_opt m' = None end /\
  (strict = true -> veqb current (s_package d) = true /\ veqb current (s_self_package d) = true).
Proof.
  intros H. unfold Reload.deserialize in H. destruct (negb (veqb current (s_package d)) && strict) eqn:E1; [discriminate|].
  destruct (make construct (s_classes d)) as [os|] eqn:M; [|discriminate].
  destruct (Nat.eqb_spec (length os) (length (s_mods d))) as [Hl|_]; cbn [negb] in H; [|discriminate].
  destruct (revive_all revive strict os (s_mods d)) as [os1 [[]|e1]] eqn:R; [|discriminate].
  destruct (Nat.eqb_spec (length os1) (s_structure d)) as [Hs|_]; cbn [negb] in H; [|discriminate].
  destruct (s_key d) as [k|e1]; [|discriminate].
  assert (B : came_back strict d os1).
  { exists os. split; [apply make_ok; exact M|]. split; [exact Hl|]. apply (revive_all_ok strict os (s_mods d) os1 Hl R). }
  assert (OW : forall o, own_entries veqb current settle strict (mk_model os1 None None o k (s_name d)) d = (m', Ok tt) ->
    settle os1 (s_rest d) = (r_mods m', Ok tt) /\ s_in d = Some (r_in m') /\ s_out d = Some (r_out m') /\ r_key m' = k /\ r_name m' = s_name d /\ r_opt m' = o /\
    (strict = true -> veqb current (s_package d) = true /\ veqb current (s_self_package d) = true)).
  { intros o. unfold own_entries. destruct (negb (veqb current (s_self_package d)) && strict) eqn:E2; [discriminate|].
    destruct (s_in d) as [i|]; [|discriminate]. destruct (s_out d) as [u|]; [|discriminate]. cbn [r_mods r_opt r_key r_name].
    destruct (settle os1 (s_rest d)) as [os2 r]. intros X. injection X as <- ->. cbn. repeat (split; [reflexivity|]).
    intros ->. rewrite andb_true_r in E1, E2. apply negb_false_iff in E1, E2. auto. }
  destruct (s_opt d) as [[o|e1]|]; [| discriminate |]; destruct (OW _ H) as (T & I & U & Hk & Hn & Ho & Hv); subst k; eauto 12.
Qed.

(** Whether a load succeeds, and with what, does not depend on what the model
    was before. *)
Theorem C140_forgets strict (m1 m2 : model) (d : saved) m1' :
  deserialize strict m1 d = (m1', Ok tt) -> deserialize strict m2 d = (m1', Ok tt).
Proof.
  unfold Reload.deserialize. destruct (negb (veqb current (s_package d)) && strict); [discriminate|].
  destruct (make construct (s_classes d)) as [os|]; [|discriminate].
  destruct (negb (length os =? length (s_mods d))); [discriminate|].
  destruct (revive_all revive strict os (s_mods d)) as [os1 [[]|]]; [|discriminate].
  destruct (negb (length os1 =? s_structure d)); [discriminate|]. destruct (s_key d); [|discriminate].
  destruct (s_opt d) as [[|]|]; auto.
Qed.
End Facts.

(** A load that raises leaves the model as it was. *)
Definition failed_load_harmless_always : Prop :=
  forall (V C O SM Sh Op K N E : Type) veqb (current : V) (construct : C -> result O) (revive : bool -> O -> SM -> O * result unit)
    (settle : list O -> E -> list O * result unit) strict (m : @model O Sh Op K N) (d : @saved V C SM Sh Op K N E) m' e,
  deserialize veqb current construct revive settle strict m d = (m', Err e) -> m' = m.

(** Modules are numbers to multiply by, 1 to begin with, always ready; class 7
    is not there, the saved module 13 is refused. *)
Definition x_construct (c : nat) : result nat := if c =? 7 then Err KeyError else Ok 1.
Definition x_revive (strict : bool) (o s : nat) : nat * result unit := if s =? 13 then (o, Err ValueError) else (s, Ok tt).
Definition x_settle (os : list nat) (e : list nat) : list nat * result unit := if length e =? length os then (e, Ok tt) else (os, Err ValueError).
Definition x_load := deserialize Nat.eqb 3 x_construct x_revive x_settle (Sh := nat) (Op := nat) (K := nat) (N := nat).
Definition x_model : @model nat nat nat nat nat := mk_model [5; 6] (Some 2) (Some 2) (Some 9) 8 (Some 4).
Definition x_file (package : nat) (classes mods rest : list nat) : @saved nat nat nat nat nat nat nat (list nat) :=
  mk_saved package classes mods (length mods) (Some 1) (Ok 0) None package (Some (Some 3)) (Some (Some 3)) rest.
Definition x_run (m : @model nat nat nat nat nat) (x : nat) : result nat := Ok (fold_left Nat.mul (r_mods m) x).
Definition x_call := call (Sh := nat) (Op := nat) (K := nat) (N := nat) (fun _ : nat => true) x_run.
Definition x_compile := compile (Sh := nat) (Op := nat) (K := nat) (N := nat) (fun (os : list nat) s => Ok (os, s)).

Example C140_example :
  x_call x_model 1 = Ok 30 /\
  x_load false x_model (x_file 2 [0; 0; 0] [2; 3; 4] [2; 3; 4]) = (mk_model [2; 3; 4] (Some 3) (Some 3) None 0 (Some 1), Ok tt) /\
  x_load true x_model (x_file 2 [0; 0; 0] [2; 3; 4] [2; 3; 4]) = (mk_model [5; 6] None None None 8 (Some 4), Err ValueError) /\
  x_load false x_model (x_file 3 [0; 7] [2; 3] [2; 3]) = (mk_model [5; 6] None None None 8 (Some 4), Err KeyError) /\
  x_load false x_model (x_file 3 [0; 0; 0] [2; 13; 4] [2; 3; 4]) = (mk_model [2; 1; 1] None None None 8 (Some 4), Err ValueError) /\
  x_load false x_model (x_file 3 [0; 0] [2; 3] []) = (mk_model [2; 3] (Some 3) (Some 3) None 0 (Some 1), Err ValueError) /\
  x_call (fst (x_load false x_model (x_file 3 [0; 0; 0] [2; 13; 4] [2; 3; 4]))) 1 = Err RuntimeError.
Proof. repeat split. Qed.

(** A file of which the second module is refused: the modules there were are
    gone. Compiling, which [train] does by itself, makes a model of the first
    module of the file and fresh ones, 2 * 1 * 1 instead of 5 * 6. And with the
    model's own parameters refused, the model is ready at once, in spite of the
    exception. *)
Theorem C140_refuted :
  (exists m', x_load false x_model (x_file 3 [0; 0; 0] [2; 13; 4] [2; 3; 4]) = (m', Err ValueError) /\
    snd (x_compile m' 2) = Ok tt /\ x_call (fst (x_compile m' 2)) 1 = Ok 2 /\ x_call x_model 1 = Ok 30) /\
  (exists m', x_load false x_model (x_file 3 [0; 0] [2; 3] []) = (m', Err ValueError) /\ x_call m' 1 = Ok 6) /\
  ~ failed_load_harmless_always.
Proof.
  split; [eexists; repeat split|]. split; [eexists; repeat split|]. intros A.
  specialize (A _ _ _ _ nat nat nat nat _ Nat.eqb 3 x_construct x_revive x_settle true x_model (x_file 2 [0; 0; 0] [2; 3; 4] [2; 3; 4]) _ _ eq_refl). discriminate.
Qed.

Print Assumptions C140_partial.
Print Assumptions C140_early.
Print Assumptions C140_complete.
Print Assumptions C140_forgets.
Print Assumptions C140_refuted.
