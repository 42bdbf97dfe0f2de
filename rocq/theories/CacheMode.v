(** Lemmas on the differentiation mode of cached gradient functions and on the
    batching options in force. *)
From Verif Require Import Base BaseLemmas Cache CacheSpec CacheProofs.
Local Open Scope list_scope.

Section Mode.
Context {E L P S Sh Sg : Type} (sg_eqb : Sg -> Sg -> bool) (sh_eqb : Sh -> Sh -> bool) (shape_of : Sg -> Sh)
  (fewer : Sh -> Sh -> bool) (ready1 : modl E L -> bool) (compile1 : compiler E L Sh).
Notation model := (model E L P S Sh Sg). Notation action := (action E L P S Sh Sg). Notation fn := (fn E L Sg).
Notation step := (step sg_eqb sh_eqb shape_of fewer ready1 compile1).

Definition points (st : list fn) (mk : bool -> what) (g : option (bool * nat)) : Prop :=
  forall b r, g = Some (b, r) -> exists f, nth_error st r = Some f /\ what_of f = mk b.
Definition dir (m : model) : Prop := points (store m) GradInput (g_in m) /\ points (store m) GradParams (g_par m).

Lemma points_app st st' mk g : points st mk g -> points (st ++ st') mk g.
Proof. intros H b r E0. destruct (H b r E0) as (f & A & B). exists f. split; [|exact B]. rewrite nth_error_app1; [exact A|]. apply nth_error_Some. congruence. Qed.
Lemma points_upd st mk g r f t : points st mk g -> nth_error st r = Some f -> points (upd st r (mk_fn (what_of f) (early f) t)) mk g.
Proof.
  intros H Hf b r0 E0. destruct (H b r0 E0) as (f0 & A & B). destruct (Nat.eq_dec r r0) as [->|Hne].
  - rewrite A in Hf. injection Hf as ->. eexists. split; [apply nth_upd_same; apply nth_error_Some; congruence|]. exact B.
  - exists f0. split; [rewrite nth_upd_other by exact Hne; exact A|exact B].
Qed.
Lemma exec_dir (m : model) jit r sg : dir m -> dir (fst (exec sg_eqb m jit r sg)).
Proof.
  intros [A B]. unfold exec. destruct (nth_error (store m) r) as [f|] eqn:Ef; [|split; assumption].
  destruct (if jit then find_trace sg_eqb f sg else None); [split; assumption|]. destruct jit; [|split; assumption].
  split; cbn [fst set_store store g_in g_par]; apply points_upd; assumption.
Qed.
Lemma grad_slots_dir (m : model) mk g a fwd o st g' a' : points (store m) mk g -> grad_slots fewer m mk g a fwd o = (st, g', a') ->
  (exists x, st = store m ++ x) /\ points st mk (Some g') /\ (forall b, fwd = Some b -> fst g' = b) /\
  (fst a' = o /\ (a' = (o, snd g') \/ exists r0, a = Some (o, r0) /\ a' = (o, r0))) .
Proof.
  intros Hg H. unfold grad_slots in H.
  set (fwd' := match g, fwd with None, None => _ | _, _ => fwd end) in H.
  assert (Hf : forall b, fwd = Some b -> fwd' = Some b). { intros b ->. subst fwd'. destruct g; reflexivity. }
  clearbody fwd'.
  match type of H with (let '(_, _) := ?X in _) = _ => destruct X as [st0 g0] eqn:EX end.
  assert (HN : forall b, points (store m ++ [mk_fn (mk b) (map fst (mods m)) []]) mk (Some (b, length (store m)))).
  { intros b b0 r0 E0. injection E0 as <- <-. eexists. split; [rewrite nth_error_app2, Nat.sub_diag by lia; reflexivity|reflexivity]. }
  assert (HB : (exists x, st0 = store m ++ x) /\ points st0 mk (Some g0) /\ forall b, fwd' = Some b -> fst g0 = b).
  { destruct g as [[b r]|].
    - destruct fwd' as [b'|]; [destruct (Bool.eqb b b') eqn:Eb|].
      + injection EX as <- <-. split; [exists []; rewrite app_nil_r; reflexivity|]. split; [exact Hg|]. intros b1 E1. injection E1 as <-. apply Bool.eqb_prop in Eb. exact Eb.
      + unfold build in EX. injection EX as <- <-. split; [eexists; reflexivity|]. split; [apply HN|]. intros b1 E1. injection E1 as <-. reflexivity.
      + injection EX as <- <-. split; [exists []; rewrite app_nil_r; reflexivity|]. split; [exact Hg|]. discriminate.
    - unfold build in EX. injection EX as <- <-. split; [eexists; reflexivity|]. split; [apply HN|]. intros b1 ->. reflexivity. }
  destruct HB as (B1 & B2 & B3). injection H as <- <- <-. split; [exact B1|]. split; [exact B2|]. split; [intros b Hb; apply B3, Hf, Hb|].
  destruct a as [[o0 r0]|]; [|split; [reflexivity|left; reflexivity]].
  destruct (opts_eqb o0 o) eqn:Eo; [|split; [reflexivity|left; reflexivity]].
  assert (o0 = o) as ->.
  { destruct o0 as [[m0|] b0], o as [[n0|] b1]; unfold opts_eqb in Eo; cbn [fst snd] in Eo; apply andb_prop in Eo as [Eo1 Eo2]; try discriminate Eo1;
      apply Bool.eqb_prop in Eo2; subst b1; [apply Nat.eqb_eq in Eo1; subst n0|]; reflexivity. }
  split; [reflexivity|]. right. exists r0. split; reflexivity.
Qed.
Lemma step_dir (m : model) a : dir m -> dir (fst (step m a)).
Proof.
  intros HD. pose proof HD as [A B].
  destruct a as [ms|ms p s i o|ms i o|j x|s p st|p|s|sg p s|o sg|f o sg|f o sg]; cbn [Cache.step fst]; try exact HD.
  - split; intros b r E0; discriminate.
  - split; intros b r E0; discriminate.
  - destruct ms; exact HD.
  - unfold quiet. cbn [fst]. unfold compile. destruct (negb (sequential m) && is_ready ready1 m)%bool; [exact HD|].
    destruct (sequential m); [destruct (compile_mods compile1 (mods m) s) as [ms [out|e]]; exact HD|].
    destruct (shape_mods compile1 (mods m) s) as [[ss out]|e]; [|exact HD]. destruct (negb (enough compile1 out)); [exact HD|].
    destruct (compile_for compile1 (mods m) ss) as [ms r]; exact HD.
  - destruct (verify sh_eqb shape_of ready1 m sg); exact HD.
  - unfold eventful. cbn [fst]. unfold call. destruct (verify sh_eqb shape_of ready1 m sg); [|exact HD].
    assert (HS : exists x r, (match callable m with Some r => (store m, r) | None => build m Value end) = (store m ++ x, r)).
    { destruct (callable m) as [r|]; [exists [], r; rewrite app_nil_r; reflexivity|]. unfold build. eexists _, _. reflexivity. }
    destruct HS as (x & r & ->). destruct (match auto m with Some (o0, r0) => if opts_eqb o0 o then (o0, r0) else (o, r) | None => (o, r) end) as [o' r'].
    apply exec_dir. split; cbn [store g_in g_par]; apply points_app; assumption.
  - unfold eventful. cbn [fst]. unfold grad_input. destruct (verify sh_eqb shape_of ready1 m sg); [|exact HD].
    destruct (grad_slots fewer m GradInput (g_in m) (auto_in m) f o) as [[st g'] a'] eqn:EG.
    destruct (grad_slots_dir m GradInput _ _ _ _ _ _ _ A EG) as ((x & ->) & HP & _). apply exec_dir. split; cbn [store g_in g_par]; [exact HP|apply points_app; exact B].
  - unfold eventful. cbn [fst]. unfold grad_params. destruct (verify sh_eqb shape_of ready1 m sg); [|exact HD].
    destruct (grad_slots fewer m GradParams (g_par m) (auto_par m) f o) as [[st g'] a'] eqn:EG.
    destruct (grad_slots_dir m GradParams _ _ _ _ _ _ _ B EG) as ((x & ->) & HP & _). apply exec_dir. split; cbn [store g_in g_par]; [apply points_app; exact A|exact HP].
Qed.
Definition after (m : model) (l : list action) : model := fold_left (fun m a => fst (step m a)) l m.
Lemma after_dir l : forall m, dir m -> dir (after m l).
Proof. induction l as [|a l IH]; intros m HD; [exact HD|]. apply IH, step_dir, HD. Qed.

Lemma exec_slots (m : model) jit r sg : slots_of (fst (exec sg_eqb m jit r sg)) = slots_of m.
Proof. unfold exec. destruct (nth_error (store m) r) as [f|]; [|reflexivity]. destruct (if jit then find_trace sg_eqb f sg else None); [reflexivity|]. destruct jit; reflexivity. Qed.
Lemma exec_quantity (m : model) jit r sg f e m' : nth_error (store m) r = Some f -> exec sg_eqb m jit r sg = (m', Ok e) -> quantity e = what_of f.
Proof. intros Hf H. unfold exec in H. rewrite Hf in H. destruct (if jit then find_trace sg_eqb f sg else None); injection H as _ <-; reflexivity. Qed.

(** after an answered evaluation the options held are those given *)
Lemma held (m : model) a o sg e : snd (step m a) = Some e -> dir m ->
  (a = Call o sg -> exists r, auto (fst (step m a)) = Some (o, r)) /\
  (forall f, a = GradIn f o sg -> exists r, auto_in (fst (step m a)) = Some (o, r)) /\
  (forall f, a = GradPar f o sg -> exists r, auto_par (fst (step m a)) = Some (o, r)).
Proof.
  intros He [A B]. split; [|split].
  - intros ->. cbn [Cache.step] in *. unfold eventful in *. cbn [fst snd] in *. unfold call in *. destruct (verify sh_eqb shape_of ready1 m sg); [|discriminate He].
    destruct (match callable m with Some r => (store m, r) | None => build m Value end) as [st r].
    assert (HX : exists r', (match auto m with Some (o0, r0) => if opts_eqb o0 o then (o0, r0) else (o, r) | None => (o, r) end) = (o, r')).
    { destruct (auto m) as [[o0 r0]|]; [|eexists; reflexivity]. destruct (opts_eqb o0 o) eqn:Eo; [|eexists; reflexivity].
      assert (o0 = o) as ->.
      { destruct o0 as [[m0|] b0], o as [[n0|] b1]; unfold opts_eqb in Eo; cbn [fst snd] in Eo; apply andb_prop in Eo as [Eo1 Eo2]; try discriminate Eo1;
          apply Bool.eqb_prop in Eo2; subst b1; [apply Nat.eqb_eq in Eo1; subst n0|]; reflexivity. }
      eexists; reflexivity. }
    destruct HX as (r' & HX). rewrite HX. exists r'.
    match goal with |- auto (fst (exec _ ?M ?j ?q ?g)) = _ => pose proof (exec_slots M j q g) as HE end. unfold slots_of in HE. injection HE as _ HE _ _ _ _. rewrite HE. reflexivity.
  - intros f ->. cbn [Cache.step] in *. unfold eventful in *. cbn [fst snd] in *. unfold grad_input in *. destruct (verify sh_eqb shape_of ready1 m sg); [|discriminate He].
    destruct (grad_slots fewer m GradInput (g_in m) (auto_in m) f o) as [[st g'] [o' r']] eqn:EG.
    destruct (grad_slots_dir m GradInput _ _ _ _ _ _ _ A EG) as (_ & _ & _ & Ho & _). cbn [fst] in Ho. subst o'. exists r'.
    match goal with |- auto_in (fst (exec _ ?M ?j ?q ?g)) = _ => pose proof (exec_slots M j q g) as HE end. unfold slots_of in HE. injection HE as _ _ _ HE _ _. exact HE.
  - intros f ->. cbn [Cache.step] in *. unfold eventful in *. cbn [fst snd] in *. unfold grad_params in *. destruct (verify sh_eqb shape_of ready1 m sg); [|discriminate He].
    destruct (grad_slots fewer m GradParams (g_par m) (auto_par m) f o) as [[st g'] [o' r']] eqn:EG.
    destruct (grad_slots_dir m GradParams _ _ _ _ _ _ _ B EG) as (_ & _ & _ & Ho & _). cbn [fst] in Ho. subst o'. exists r'.
    match goal with |- auto_par (fst (exec _ ?M ?j ?q ?g)) = _ => pose proof (exec_slots M j q g) as HE end. unfold slots_of in HE. injection HE as _ _ _ _ _ HE. exact HE.
Qed.
(** options other than those held: the mode asked for *)
Lemma fresh_mode_in (m : model) b o sg e : dir m -> (forall o0 r0, auto_in m = Some (o0, r0) -> o0 <> o) ->
  snd (step m (GradIn (Some b) o sg)) = Some e -> quantity e = GradInput b.
Proof.
  intros [A B] Hne He. cbn [Cache.step] in He. unfold eventful in He. cbn [snd] in He. unfold grad_input in He. destruct (verify sh_eqb shape_of ready1 m sg); [|discriminate He].
  destruct (grad_slots fewer m GradInput (g_in m) (auto_in m) (Some b) o) as [[st g'] a'] eqn:EG.
  destruct (grad_slots_dir m GradInput _ _ _ _ _ _ _ A EG) as (_ & HP & Hb & _ & Ha). specialize (Hb b eq_refl).
  destruct Ha as [->|(r0 & Ea & _)]; [|exfalso; exact (Hne o r0 Ea eq_refl)]. cbn [snd fst] in He.
  destruct g' as [b' r']. cbn [fst snd] in *. subst b'. destruct (HP b r' eq_refl) as (f & F1 & F2).
  match type of He with context [exec ?s ?M ?j ?q ?g] => destruct (exec s M j q g) as [m' res] eqn:EX end. cbn [snd] in He. destruct res as [e0|]; [|discriminate]. injection He as ->.
  rewrite <- F2. refine (exec_quantity _ _ _ _ _ _ _ _ EX). exact F1.
Qed.
Lemma fresh_mode_par (m : model) b o sg e : dir m -> (forall o0 r0, auto_par m = Some (o0, r0) -> o0 <> o) ->
  snd (step m (GradPar (Some b) o sg)) = Some e -> quantity e = GradParams b.
Proof.
  intros [A B] Hne He. cbn [Cache.step] in He. unfold eventful in He. cbn [snd] in He. unfold grad_params in He. destruct (verify sh_eqb shape_of ready1 m sg); [|discriminate He].
  destruct (grad_slots fewer m GradParams (g_par m) (auto_par m) (Some b) o) as [[st g'] a'] eqn:EG.
  destruct (grad_slots_dir m GradParams _ _ _ _ _ _ _ B EG) as (_ & HP & Hb & _ & Ha). specialize (Hb b eq_refl).
  destruct Ha as [->|(r0 & Ea & _)]; [|exfalso; exact (Hne o r0 Ea eq_refl)]. cbn [snd fst] in He.
  destruct g' as [b' r']. cbn [fst snd] in *. subst b'. destruct (HP b r' eq_refl) as (f & F1 & F2).
  match type of He with context [exec ?s ?M ?j ?q ?g] => destruct (exec s M j q g) as [m' res] eqn:EX end. cbn [snd] in He. destruct res as [e0|]; [|discriminate]. injection He as ->.
  rewrite <- F2. refine (exec_quantity _ _ _ _ _ _ _ _ EX). exact F1.
Qed.
Lemma uncached_dir (m : model) : uncached m -> dir m.
Proof. intros (_ & _ & A & _ & B & _). split; intros b r H; congruence. Qed.
End Mode.
