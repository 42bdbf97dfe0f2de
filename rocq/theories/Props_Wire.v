(** C136: changing the connections of one graph model leaves the others as they
    are. *)
From Verif Require Import Base Wire.
Local Open Scope string_scope.
Local Open Scope list_scope.

Section Programs.
Context {V : Type}.
(** Operations that make a dictionary object: literals, models without given
    connections, models read from files. *)
Definition creates (o : op V) : bool :=
  match o with NewDict _ | Build None | Reload _ => true | _ => false end.
(** The dictionaries that a program hands to models. *)
Definition handed_by (o : op V) : list nat :=
  match o with Build (Some r) => [r] | Assign _ r => [r] | _ => [] end.
Definition handed (p : list (op V)) : list nat := flat_map handed_by p.
Definition literal (o : op V) : Prop := exists d, o = NewDict d.
(** A careful program: no copies, and every dictionary that is handed to a model
    is a literal of the program and is handed over once. *)
Definition careful (p : list (op V)) : Prop :=
  (forall m, ~ In (Copy m) p) /\ NoDup (handed p) /\
  forall r o, In r (handed p) -> nth_error (filter creates p) r = Some o -> literal o.
End Programs.

Lemma replace_length {A} (l : list A) i x : length (replace l i x) = length l.
Proof. revert i. induction l as [|y l IH]; intros [|i]; cbn; auto. Qed.
Lemma replace_same {A} (l : list A) i x : i < length l -> nth_error (replace l i x) i = Some x.
Proof. revert i. induction l as [|y l IH]; intros [|i] H; cbn in *; try lia; auto. apply IH. lia. Qed.
Lemma replace_other {A} (l : list A) i j x : i <> j -> nth_error (replace l i x) j = nth_error l j.
Proof. revert i j. induction l as [|y l IH]; intros [|i] [|j] H; cbn; try congruence; auto. Qed.
Lemma replace_in {A} (l : list A) i (x y : A) : In y (replace l i x) -> y = x \/ In y l.
Proof.
  revert i. induction l as [|z l IH]; intros [|i]; cbn; auto.
  - intros [ <- | H]; auto.
  - intros [ <- | H]; auto. destruct (IH i H); auto.
Qed.
Lemma replace_nodup {A} (l : list A) i (x : A) : NoDup l -> ~ In x l -> NoDup (replace l i x).
Proof.
  revert i. induction l as [|z l IH]; intros i H Hx; [destruct i; constructor|].
  inversion H as [|? ? Hz Hl]; subst. destruct i as [|i]; cbn.
  - constructor; [|exact Hl]. intros Hi. apply Hx. right. exact Hi.
  - constructor.
    + intros Hi. apply replace_in in Hi as [ -> | Hi]; [apply Hx; left; reflexivity|contradiction].
    + apply IH; [exact Hl|]. intros Hi. apply Hx. right. exact Hi.
Qed.
Lemma nodup_snoc {A} (l : list A) x : NoDup l -> ~ In x l -> NoDup (l ++ [x]).
Proof.
  induction l as [|y l IH]; intros H Hx; cbn; [constructor; [intros []|constructor]|].
  inversion H as [|? ? Hy Hl]; subst. constructor.
  - rewrite in_app_iff. intros [Hi|[ <- |[]]]; [contradiction|]. apply Hx. left. reflexivity.
  - apply IH; [exact Hl|]. intros Hi. apply Hx. right. exact Hi.
Qed.
Lemma nodup_snoc_inv {A} (l l' : list A) : NoDup (l ++ l') -> NoDup l /\ forall x, In x l' -> ~ In x l.
Proof.
  induction l as [|y l IH]; cbn; intros H; [split; [constructor|auto]|].
  inversion H as [|? ? Hy Hl]; subst. destruct (IH Hl) as [H1 H2]. split.
  - constructor; [|exact H1]. intros Hi. apply Hy. apply in_or_app. left. exact Hi.
  - intros x Hx [ <- | Hi]; [apply Hy; apply in_or_app; right; exact Hx|exact (H2 x Hx Hi)].
Qed.

Section Main.
Context {V : Type} (serializable : dict V -> bool).
Notation step := (step serializable).
Notation run := (run serializable).

Lemma run_snoc p o w w' : run w (p ++ [o]) = Ok w' <-> exists w1, run w p = Ok w1 /\ step w1 o = Ok w'.
Proof.
  revert w. induction p as [|a p IH]; intros w; cbn [app Wire.run].
  - split.
    + intros H. exists w. split; [reflexivity|]. destruct (step w o); [exact H|discriminate].
    + intros (w1 & H & H1). injection H as <-. rewrite H1. reflexivity.
  - destruct (step w a) as [w2|e] eqn:E.
    + apply IH.
    + split; [discriminate|]. intros (w1 & H & _). discriminate.
Qed.

(** What holds during a careful program. *)
Definition tidy (p : list (op V)) (w : world V) : Prop :=
  length (dicts w) = length (filter creates p) /\ NoDup (models w) /\
  forall r, In r (models w) -> r < length (dicts w) /\
    (In r (handed p) \/ exists o, nth_error (filter creates p) r = Some o /\ ~ literal o).

Lemma careful_prefix (p : list (op V)) o : careful (p ++ [o]) -> careful p.
Proof.
  unfold careful, handed. rewrite flat_map_app, filter_app. intros (H1 & H2 & H3). split; [|split].
  - intros m Hm. apply (H1 m). apply in_or_app. left. exact Hm.
  - exact (proj1 (nodup_snoc_inv _ _ H2)).
  - intros r o' Hr Ho. apply (H3 r o'); [apply in_or_app; left; exact Hr|].
    rewrite nth_error_app1; [exact Ho|]. apply nth_error_Some. congruence.
Qed.

Lemma fresh_tidy p o w (d : dict V) : creates o = true -> handed_by o = [] -> ~ literal o -> tidy p w -> tidy (p ++ [o]) (fresh_model w d).
Proof.
  intros C Hh Hl (H1 & H2 & H3). unfold tidy, fresh_model, handed. cbn [dicts models].
  rewrite flat_map_app, filter_app. cbn [filter flat_map]. rewrite C, Hh. cbn [app]. rewrite !app_nil_r, !app_length. cbn [length].
  split; [lia|]. split.
  - apply nodup_snoc; [exact H2|]. intros Hi. apply H3 in Hi. lia.
  - intros r Hr. apply in_app_or in Hr as [Hr|[ <- |[]]].
    + destruct (H3 r Hr) as [Hlt [Hi|(o' & Ho & Hn)]]; split; try lia; auto.
      right. exists o'. split; [|exact Hn]. rewrite nth_error_app1; [exact Ho|lia].
    + split; [lia|]. right. exists o. split; [|exact Hl]. rewrite nth_error_app2 by lia. rewrite H1, Nat.sub_diag. reflexivity.
Qed.

Lemma free_dict p o w r d : careful (p ++ [o]) -> tidy p w -> handed_by o = [r] -> creates o = false -> nth_error (dicts w) r = Some d -> ~ In r (models w).
Proof.
  unfold careful, handed. rewrite flat_map_app, filter_app. cbn [flat_map filter]. intros (_ & Hd & Hl) (H1 & _ & H3) Hh C Hr Hi.
  rewrite C, Hh in *. cbn [app] in *. rewrite app_nil_r in Hl.
  destruct (H3 r Hi) as [Hlt [Hin|(o' & Ho & Hn)]].
  - exact (proj2 (nodup_snoc_inv _ _ Hd) r (or_introl eq_refl) Hin).
  - apply Hn. apply (Hl r o'); [apply in_or_app; right; left; reflexivity|exact Ho].
Qed.

Lemma run_tidy p : forall w, careful p -> run nothing p = Ok w -> tidy p w.
Proof.
  induction p as [|o p IH] using rev_ind; intros w Hc Hr.
  - injection Hr as <-. split; [reflexivity|]. split; [constructor|intros r []].
  - apply run_snoc in Hr as (w1 & Hr & Hs). pose proof (IH w1 (careful_prefix _ _ Hc) Hr) as T.
    pose proof T as (H1 & H2 & H3). destruct o as [d|[r|]|m|m|m r|m k v]; cbn [Wire.step] in Hs.
    + injection Hs as <-. unfold tidy, handed. cbn [dicts models]. rewrite flat_map_app, filter_app. cbn [filter flat_map creates handed_by app].
      rewrite app_nil_r, !app_length. cbn [length]. split; [lia|]. split; [exact H2|].
      intros r Hi. destruct (H3 r Hi) as [Hlt [Hin|(o' & Ho & Hn)]]; split; try lia; auto.
      right. exists o'. split; [|exact Hn]. rewrite nth_error_app1; [exact Ho|lia].
    + destruct (nth_error (dicts w1) r) as [d|] eqn:E; [|discriminate]. injection Hs as <-.
      pose proof (free_dict _ _ _ _ _ Hc T eq_refl eq_refl E) as F.
      unfold tidy, handed. cbn [dicts models]. rewrite flat_map_app, filter_app. cbn [filter flat_map creates handed_by app]. rewrite app_nil_r.
      split; [exact H1|]. split; [apply nodup_snoc; assumption|].
      intros r' Hi. apply in_app_or in Hi as [Hi|[ <- |[]]].
      * destruct (H3 r' Hi) as [Hlt [Hin|X]]; split; auto. left. apply in_or_app. left. exact Hin.
      * split; [apply nth_error_Some; congruence|]. left. apply in_or_app. right. left. reflexivity.
    + injection Hs as <-. apply fresh_tidy; auto. intros [d Hd]. discriminate.
    + destruct (proj1 Hc m). apply in_or_app. right. left. reflexivity.
    + destruct (nth_error (models w1) m) as [r|]; [|discriminate]. destruct (nth_error (dicts w1) r) as [d|]; [|discriminate].
      injection Hs as <-. apply fresh_tidy; auto. intros [d' Hd]. discriminate.
    + destruct (nth_error (models w1) m) as [r0|]; [|discriminate]. destruct (nth_error (dicts w1) r) as [d|] eqn:E; [|discriminate]. injection Hs as <-.
      pose proof (free_dict _ _ _ _ _ Hc T eq_refl eq_refl E) as F.
      unfold tidy, handed. cbn [dicts models]. rewrite flat_map_app, filter_app. cbn [filter flat_map creates handed_by app]. rewrite app_nil_r.
      split; [exact H1|]. split; [apply replace_nodup; assumption|].
      intros r' Hi. apply replace_in in Hi as [ -> | Hi].
      * split; [apply nth_error_Some; congruence|]. left. apply in_or_app. right. left. reflexivity.
      * destruct (H3 r' Hi) as [Hlt [Hin|X]]; split; auto. left. apply in_or_app. left. exact Hin.
    + destruct (nth_error (models w1) m) as [r|]; [|discriminate]. destruct (nth_error (dicts w1) r) as [d|]; [|discriminate]. injection Hs as <-.
      unfold tidy, handed. cbn [dicts models]. rewrite flat_map_app, filter_app. cbn [filter flat_map creates handed_by app]. rewrite !app_nil_r, replace_length.
      split; [exact H1|]. split; [exact H2|exact H3].
Qed.
End Main.

(** In a careful program an entry written into the connections of one model shows
    in that model and in no other.  Missing: programs with copies or with a
    dictionary handed over twice (see below). *)
Theorem C136_partial {V} (serializable : dict V -> bool) p w m k v w' :
  careful p -> run serializable nothing p = Ok w -> step serializable w (Put m k v) = Ok w' ->
  (exists d, wiring w m = Some d /\ wiring w' m = Some (dset d k v)) /\ forall m', m' <> m -> wiring w' m' = wiring w m'.
Proof.
  intros Hc Hr Hs. destruct (run_tidy serializable p w Hc Hr) as (_ & HN & _). cbn [step] in Hs. unfold wiring.
  destruct (nth_error (models w) m) as [r|] eqn:Er; [|discriminate]. destruct (nth_error (dicts w) r) as [d|] eqn:Ed; [|discriminate].
  injection Hs as <-. cbn [dicts models]. split.
  - exists d. split; [reflexivity|]. rewrite Er. apply replace_same. apply nth_error_Some. congruence.
  - intros m' Hm. destruct (nth_error (models w) m') as [r'|] eqn:Er'; [|reflexivity].
    apply replace_other. intros ->. apply Hm.
    refine (proj1 (NoDup_nth_error (models w)) HN m' m _ _); [|congruence]. apply nth_error_Some. congruence.
Qed.

(** Whatever else happens -- a new model, a copy, a model read from a file, another
    dictionary assigned to the attribute -- leaves the connections of the other
    models as they are, in every program. *)
Theorem C136_other_operations {V} (serializable : dict V -> bool) w o w' m :
  step serializable w o = Ok w' -> (forall m' k v, o <> Put m' k v) -> (forall r, o <> Assign m r) ->
  wiring w m <> None -> wiring w' m = wiring w m.
Proof.
  intros Hs Hp Ha Hw. unfold wiring in *. destruct (nth_error (models w) m) as [r|] eqn:Er; [|contradiction].
  assert (L : m < length (models w)) by (apply nth_error_Some; congruence).
  assert (Ld : r < length (dicts w)) by (apply nth_error_Some; exact Hw).
  assert (F : forall d, match nth_error (models (fresh_model w d)) m with Some r0 => nth_error (dicts (fresh_model w d)) r0 | None => None end = nth_error (dicts w) r).
  { intros d. unfold fresh_model. cbn [dicts models]. rewrite nth_error_app1, Er by exact L. apply nth_error_app1. exact Ld. }
  destruct o as [d|[r'|]|m'|m'|m' r'|m' k v]; cbn [step] in Hs.
  - injection Hs as <-. cbn [dicts models]. rewrite Er. apply nth_error_app1. exact Ld.
  - destruct (nth_error (dicts w) r'); [|discriminate]. injection Hs as <-. cbn [dicts models]. rewrite nth_error_app1, Er by exact L. reflexivity.
  - injection Hs as <-. apply F.
  - destruct (nth_error (models w) m') as [r'|]; [|discriminate]. destruct (nth_error (dicts w) r') as [d|]; [|discriminate].
    destruct (serializable d); injection Hs as <-; [|apply F]. cbn [dicts models]. rewrite nth_error_app1, Er by exact L. reflexivity.
  - destruct (nth_error (models w) m') as [r'|]; [|discriminate]. destruct (nth_error (dicts w) r') as [d|]; [|discriminate]. injection Hs as <-. apply F.
  - assert (m' <> m) by (intros ->; exact (Ha r' eq_refl)).
    destruct (nth_error (models w) m') as [r0|]; [|discriminate]. destruct (nth_error (dicts w) r'); [|discriminate]. injection Hs as <-.
    cbn [dicts models]. rewrite replace_other, Er by assumption. reflexivity.
  - destruct (Hp m' k v eq_refl).
Qed.

(** A copy begins with the connections of the original, and shares them from then
    on: until one of the two attributes is assigned anew, every change of the one
    is a change of the other. *)
Theorem C136_copies_share {V} (serializable : dict V -> bool) w m d w1 p w2 :
  wiring w m = Some d -> serializable d = true -> step serializable w (Copy m) = Ok w1 ->
  let c := length (models w) in
  (forall r, ~ In (Assign m r) p) -> (forall r, ~ In (Assign c r) p) -> run serializable w1 p = Ok w2 ->
  wiring w1 c = Some d /\ wiring w2 c = wiring w2 m.
Proof.
  intros Hw Sd Hs c Hm Hc Hr. unfold wiring in *. cbn [step] in Hs. destruct (nth_error (models w) m) as [r|] eqn:Er; [|discriminate].
  rewrite Hw, Sd in Hs. injection Hs as <-. cbn [dicts models] in *.
  assert (L : m < length (models w)) by (apply nth_error_Some; congruence).
  assert (Ec : nth_error (models w ++ [r]) c = Some r) by (unfold c; rewrite nth_error_app2, Nat.sub_diag by lia; reflexivity).
  split; [rewrite Ec; exact Hw|].
  enough (G : forall p (u u' : world V), (forall r, ~ In (Assign m r) p) -> (forall r, ~ In (Assign c r) p) ->
              (exists r, nth_error (models u) m = Some r /\ nth_error (models u) c = Some r) -> run serializable u p = Ok u' ->
              exists r, nth_error (models u') m = Some r /\ nth_error (models u') c = Some r).
  { destruct (G p (mk_world (dicts w) (models w ++ [r])) w2 Hm Hc) as (r' & -> & ->); [|exact Hr|reflexivity].
    exists r. cbn [models]. split; [rewrite nth_error_app1 by exact L; exact Er|exact Ec]. }
  clear Hm Hc Hr p w2. induction p as [|o p IH]; intros u u' Hm Hc (q & Q1 & Q2) Hr; cbn [run] in Hr.
  - injection Hr as <-. exists q. split; assumption.
  - destruct (step serializable u o) as [u1|e] eqn:E; [|discriminate].
    refine (IH u1 u' (fun r H => Hm r (or_intror H)) (fun r H => Hc r (or_intror H)) _ Hr). exists q.
    assert (K : forall l, nth_error (models u ++ l) m = Some q /\ nth_error (models u ++ l) c = Some q).
    { intros l. split; rewrite nth_error_app1; try assumption; apply nth_error_Some; congruence. }
    destruct o as [d'|[r'|]|m'|m'|m' r'|m' k v]; cbn [step] in E.
    + injection E as <-. split; assumption.
    + destruct (nth_error (dicts u) r'); [|discriminate]. injection E as <-. apply K.
    + injection E as <-. apply K.
    + destruct (nth_error (models u) m') as [r'|]; [|discriminate]. destruct (nth_error (dicts u) r') as [d'|]; [|discriminate].
      destruct (serializable d'); injection E as <-; apply K.
    + destruct (nth_error (models u) m') as [r'|]; [|discriminate]. destruct (nth_error (dicts u) r') as [d'|]; [|discriminate]. injection E as <-. apply K.
    + destruct (nth_error (models u) m') as [r0|]; [|discriminate]. destruct (nth_error (dicts u) r'); [|discriminate]. injection E as <-.
      cbn [models]. split; rewrite replace_other; try assumption; intros ->; [exact (Hm r' (or_introl eq_refl))|exact (Hc r' (or_introl eq_refl))].
    + destruct (nth_error (models u) m') as [r'|]; [|discriminate]. destruct (nth_error (dicts u) r') as [d'|]; [|discriminate]. injection E as <-.
      split; assumption.
Qed.

(** Not in general: writing into the connections of a copy rewires the original. *)
Definition changes_one : Prop := forall (serializable : dict string -> bool) p w m k v w',
  run serializable nothing p = Ok w -> step serializable w (Put m k v) = Ok w' -> forall m', m' <> m -> wiring w' m' = wiring w m'.
Definition shown (r : result (world string)) (m : nat) : option (dict string) := match r with Ok w => wiring w m | Err _ => None end.
Definition ex_copied : list (op string) := [NewDict [("input", "M1"); ("M1", "output")]; Build (Some 0); Copy 0].
Definition ex_twice : list (op string) := [NewDict [("input", "M1"); ("M1", "output")]; Build (Some 0); Build (Some 0)].
Theorem C136_refuted : ~ changes_one.
Proof.
  intros H.
  specialize (H (fun _ => true) ex_copied _ 1 "M1" "M2" _ eq_refl eq_refl 0 ltac:(discriminate)).
  vm_compute in H. discriminate.
Qed.
(** Nor without copies: two models built from one dictionary share it. *)
Theorem C136_constructor_refuted :
  ~ forall (serializable : dict string -> bool) p w m k v w', (forall m, ~ In (Copy m) p) ->
      run serializable nothing p = Ok w -> step serializable w (Put m k v) = Ok w' -> forall m', m' <> m -> wiring w' m' = wiring w m'.
Proof.
  intros H.
  specialize (H (fun _ => true) ex_twice _ 1 "M1" "M2" _ (fun m K => match K with or_introl e | or_intror (or_introl e) | or_intror (or_intror (or_introl e)) => ltac:(discriminate e) | or_intror (or_intror (or_intror f)) => f end) eq_refl eq_refl 0 ltac:(discriminate)).
  vm_compute in H. discriminate.
Qed.

(** Two models with dictionaries of their own and one read from the file of the first. *)
Definition ex_careful : list (op string) :=
  [NewDict [("input", "M1"); ("M1", "output")]; NewDict [("input", "M1"); ("M1", "M2"); ("M2", "output")]; Build (Some 0); Build None; Assign 1 1; Reload 0].
Example C136_partial_example :
  careful ex_careful /\
  let r := run (fun _ => true) nothing ex_careful in
  (shown r 0 = Some [("input", "M1"); ("M1", "output")] /\ shown r 2 = shown r 0) /\
  let r' := let* w := r in step (fun _ => true) w (Put 2 "M1" "M3") in
  shown r' 2 = Some [("input", "M1"); ("M1", "M3")] /\ shown r' 0 = shown r 0 /\ shown r' 1 = shown r 1.
Proof.
  split; [|vm_compute; repeat split].
  split; [|split].
  - intros m H. cbn in H. repeat destruct H as [H|H]; try discriminate H; exact H.
  - cbn. repeat constructor; cbn; lia.
  - intros r o Hr Ho. cbn in Hr. destruct Hr as [ <- |[ <- |[]]]; cbn in Ho; injection Ho as <-; eexists; reflexivity.
Qed.
Example C136_other_operations_example :
  let r := run (fun _ => true) nothing ex_copied in
  let r' := let* w := r in run (fun _ => true) w [NewDict []; Assign 1 1] in
  shown r' 0 = shown r 0 /\ shown r' 1 = Some [] /\ shown r 1 = Some [("input", "M1"); ("M1", "output")].
Proof. vm_compute. repeat split. Qed.
Example C136_copies_share_example :
  let r' := run (fun _ => true) nothing (ex_copied ++ [Put 1 "M1" "M2"; Put 0 "M2" "output"]) in
  shown r' 0 = Some [("input", "M1"); ("M1", "M2"); ("M2", "output")] /\ shown r' 1 = shown r' 0.
Proof. vm_compute. repeat split. Qed.

Print Assumptions C136_partial.
Print Assumptions C136_other_operations.
Print Assumptions C136_copies_share.
Print Assumptions C136_refuted.
Print Assumptions C136_constructor_refuted.
