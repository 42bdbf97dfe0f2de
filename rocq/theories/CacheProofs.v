(** Lemmas on cached functions. *)
From Verif Require Import Base BaseLemmas Cache CacheSpec.
Local Open Scope list_scope.

Section Proofs.
Context {E L P S Sh Sg : Type} (sg_eqb : Sg -> Sg -> bool) (sh_eqb : Sh -> Sh -> bool) (shape_of : Sg -> Sh)
  (fewer : Sh -> Sh -> bool) (ready1 : modl E L -> bool) (compile1 : compiler E L Sh).
Notation model := (model E L P S Sh Sg). Notation action := (action E L P S Sh Sg). Notation fn := (fn E L Sg).
Notation step := (step sg_eqb sh_eqb shape_of fewer ready1 compile1).

(** a property of stored functions, relative to the modules *)
Context (G : list (modl E L) -> fn -> Prop).
Context (Gnew : forall ms w, G ms (mk_fn w (map fst ms) [])).
Context (Gtrace : forall ms f sg, G ms f -> G ms (mk_fn (what_of f) (early f) (traces f ++ [(sg, map snd ms)]))).

Definition is_val (w : what) := w = Value.
Definition is_in (w : what) := exists b, w = GradInput b.
Definition is_par (w : what) := exists b, w = GradParams b.
Definition slot (ms : list (modl E L)) (st : list fn) (K : what -> Prop) (r : nat) : Prop :=
  exists f, nth_error st r = Some f /\ K (what_of f) /\ G ms f.
Definition oslot ms st K (r : option nat) : Prop := forall n, r = Some n -> slot ms st K n.
Definition sinv (m : model) (ms : list (modl E L)) (st : list fn) : Prop :=
  oslot ms st is_val (callable m) /\ oslot ms st is_val (option_map snd (auto m)) /\
  oslot ms st is_in (option_map snd (g_in m)) /\ oslot ms st is_in (option_map snd (auto_in m)) /\
  oslot ms st is_par (option_map snd (g_par m)) /\ oslot ms st is_par (option_map snd (auto_par m)).
Definition inv (m : model) : Prop := sinv m (mods m) (store m).

Lemma uncached_sinv m ms st : uncached m -> sinv m ms st.
Proof. intros (A & B & C & D & F & H). unfold sinv. rewrite A, B, C, D, F, H. cbn [option_map]. repeat split; intros n Hn; discriminate. Qed.

(** growing the store *)
Lemma slot_app ms st st' K r : slot ms st K r -> slot ms (st ++ st') K r.
Proof. intros (f & H & R). exists f. split; [|exact R]. rewrite nth_error_app1; [exact H|]. apply nth_error_Some. congruence. Qed.
Lemma oslot_app ms st st' K r : oslot ms st K r -> oslot ms (st ++ st') K r.
Proof. intros H n Hn. apply slot_app, H, Hn. Qed.
Lemma sinv_app m ms st st' : sinv m ms st -> sinv m ms (st ++ st').
Proof. intros (A & B & C & D & F & H). repeat split; apply oslot_app; assumption. Qed.
Lemma slot_new ms st (K : what -> Prop) w : K w -> slot ms (st ++ [mk_fn w (map fst ms) []]) K (length st).
Proof. intros H. eexists. split; [rewrite nth_error_app2 by lia; rewrite Nat.sub_diag; reflexivity|]. split; [exact H|apply Gnew]. Qed.
(** adding a trace *)
Lemma slot_upd ms st K r r0 f sg : slot ms st K r -> nth_error st r0 = Some f -> 
  slot ms (upd st r0 (mk_fn (what_of f) (early f) (traces f ++ [(sg, map snd ms)]))) K r.
Proof.
  intros (f' & H & R1 & R2) H0. destruct (Nat.eq_dec r0 r) as [->|Hne].
  - rewrite H in H0. injection H0 as ->. eexists. split; [apply nth_upd_same; apply nth_error_Some; congruence|]. split; [exact R1|apply Gtrace; exact R2].
  - exists f'. split; [rewrite nth_upd_other by exact Hne; exact H|]. split; assumption.
Qed.
Lemma sinv_upd m ms st r0 f sg : sinv m ms st -> nth_error st r0 = Some f ->
  sinv m ms (upd st r0 (mk_fn (what_of f) (early f) (traces f ++ [(sg, map snd ms)]))).
Proof. intros (A & B & C & D & F & H) H0. repeat split; intros n Hn; apply slot_upd; auto. Qed.

(** running a function *)
Definition ev_ok (m : model) (K : what -> Prop) (e : event E L P S) : Prop :=
  with_pars e = pars m /\ with_sts e = sts m /\ K (quantity e) /\
  exists f late, G (mods m) f /\ used e = combine (early f) late /\ (late = map snd (mods m) \/ exists sg, In (sg, late) (traces f)).
Lemma exec_ok m jit r sg K m' res : inv m -> slot (mods m) (store m) K r -> exec sg_eqb m jit r sg = (m', res) ->
  inv m' /\ mods m' = mods m /\ exists e, res = Ok e /\ ev_ok m K e.
Proof.
  intros HI (f & Hf & HK & HG) H. unfold exec in H. rewrite Hf in H. destruct jit.
  - unfold find_trace in H. destruct (find _ (traces f)) as [[sg' late]|] eqn:Ef; cbn [option_map snd] in H; injection H as <- <-.
    + split; [exact HI|]. split; [reflexivity|]. eexists. split; [reflexivity|]. repeat split; [exact HK|]. cbn [used]. exists f, late. split; [exact HG|]. split; [reflexivity|].
      right. exists sg'. apply find_some in Ef as [Ef _]. exact Ef.
    + split. { unfold inv. cbn [mods store set_store]. apply (sinv_upd m); assumption. } split; [reflexivity|]. eexists. split; [reflexivity|]. repeat split; [exact HK|].
      exists f, (map snd (mods m)). auto.
  - injection H as <- <-. split; [exact HI|]. split; [reflexivity|]. eexists. split; [reflexivity|]. repeat split; [exact HK|]. exists f, (map snd (mods m)). auto.
Qed.

Lemma call_ok m o sg m' res : inv m -> call sg_eqb sh_eqb shape_of ready1 m o sg = (m', res) ->
  inv m' /\ mods m' = mods m /\ (forall e, res = Ok e -> ev_ok m is_val e) /\ (verify sh_eqb shape_of ready1 m sg = Ok tt -> exists e, res = Ok e).
Proof.
  intros HI H. unfold call in H. destruct (verify sh_eqb shape_of ready1 m sg) as [u|e]; [|injection H as <- <-; split; [exact HI|]; split; [reflexivity|]; split; discriminate].
  assert (HB : exists st r, (match callable m with Some r => (store m, r) | None => build m Value end) = (st, r) /\ sinv m (mods m) st /\ slot (mods m) st is_val r).
  { pose proof HI as (A & _). destruct (callable m) as [r|] eqn:Ec.
    - eexists _, _. split; [reflexivity|]. split; [exact HI|]. apply A. reflexivity.
    - unfold build. eexists _, _. split; [reflexivity|]. split; [apply sinv_app; exact HI|]. apply slot_new. reflexivity. }
  destruct HB as (st & r & EB & HS & Hr). rewrite EB in H.
  destruct (match auto m with Some (o0, r0) => if opts_eqb o0 o then (o0, r0) else (o, r) | None => (o, r) end) as [o' r'] eqn:Ea.
  assert (Hr' : slot (mods m) st is_val r').
  { destruct (auto m) as [[o0 r0]|] eqn:Eau; [destruct (opts_eqb o0 o)|]; injection Ea as <- <-; try exact Hr.
    destruct HS as (_ & B & _). apply B. rewrite Eau. reflexivity. }
  match type of H with exec _ ?M _ _ _ = _ => set (m1 := M) in * end.
  assert (HI1 : inv m1).
  { destruct HS as (A & B & C & D & F & K). unfold inv, sinv. subst m1. cbn [mods store callable auto g_in auto_in g_par auto_par option_map snd].
    repeat split; try assumption; intros n En; injection En as <-; assumption. }
  destruct (exec_ok m1 true r' sg is_val m' res HI1 Hr' H) as (I1 & I2 & e & -> & I3). split; [exact I1|]. split; [exact I2|]. split; [intros e0 E0; injection E0 as <-; exact I3|]. intros _. exists e. reflexivity.
Qed.

Lemma grad_slots_ok m mk (K : what -> Prop) g a fwd o st g' a' : (forall b, K (mk b)) -> sinv m (mods m) (store m) ->
  oslot (mods m) (store m) K (option_map snd g) -> oslot (mods m) (store m) K (option_map snd a) ->
  grad_slots fewer m mk g a fwd o = (st, g', a') ->
  sinv m (mods m) st /\ slot (mods m) st K (snd g') /\ slot (mods m) st K (snd a').
Proof.
  intros HK HI Hg Ha H. unfold grad_slots in H.
  set (fwd' := match g, fwd with None, None => _ | _, _ => fwd end) in H.
  match type of H with (let '(_, _) := ?X in _) = _ => destruct X as [st0 g0] eqn:EX end.
  assert (HB : sinv m (mods m) st0 /\ slot (mods m) st0 K (snd g0) /\ exists x, st0 = store m ++ x).
  { clearbody fwd'. destruct g as [[b r]|].
    - destruct fwd' as [b'|]; [destruct (Bool.eqb b b')|].
      + injection EX as <- <-. split; [exact HI|]. split; [apply Hg; reflexivity|]. exists []. rewrite app_nil_r. reflexivity.
      + unfold build in EX. injection EX as <- <-. split; [apply sinv_app; exact HI|]. split; [apply slot_new; apply HK|]. eexists. reflexivity.
      + injection EX as <- <-. split; [exact HI|]. split; [apply Hg; reflexivity|]. exists []. rewrite app_nil_r. reflexivity.
    - unfold build in EX. injection EX as <- <-. split; [apply sinv_app; exact HI|]. split; [apply slot_new; apply HK|]. eexists. reflexivity. }
  destruct HB as (HB & HC & x & Ex). injection H as <- <- <-. split; [exact HB|]. split; [exact HC|].
  destruct a as [[o0 r0]|]; [destruct (opts_eqb o0 o)|]; cbn [snd]; try exact HC. rewrite Ex. apply slot_app. apply Ha. reflexivity.
Qed.
Lemma grad_input_ok m fwd o sg m' res : inv m -> grad_input sg_eqb sh_eqb shape_of fewer ready1 m fwd o sg = (m', res) ->
  inv m' /\ mods m' = mods m /\ (forall e, res = Ok e -> ev_ok m is_in e) /\ (verify sh_eqb shape_of ready1 m sg = Ok tt -> exists e, res = Ok e).
Proof.
  intros HI H. unfold grad_input in H. destruct (verify sh_eqb shape_of ready1 m sg) as [u|e]; [|injection H as <- <-; split; [exact HI|]; split; [reflexivity|]; split; discriminate].
  destruct (grad_slots fewer m GradInput (g_in m) (auto_in m) fwd o) as [[st g'] a'] eqn:EG. pose proof HI as (_ & _ & C & D & _).
  destruct (grad_slots_ok m GradInput is_in _ _ _ _ _ _ _ (fun b => ex_intro _ b eq_refl) HI C D EG) as (HS & Hg & Ha).
  match type of H with exec _ ?M _ _ _ = _ => set (m1 := M) in * end.
  assert (HI1 : inv m1).
  { destruct HS as (A & B & C' & D' & F & K). unfold inv, sinv. subst m1. cbn [mods store callable auto g_in auto_in g_par auto_par option_map snd].
    repeat split; try assumption; intros n En; injection En as <-; assumption. }
  destruct (exec_ok m1 _ _ sg is_in m' res HI1 Ha H) as (I1 & I2 & e & -> & I3). split; [exact I1|]. split; [exact I2|]. split; [intros e0 E0; injection E0 as <-; exact I3|]. intros _. exists e. reflexivity.
Qed.
Lemma grad_params_ok m fwd o sg m' res : inv m -> grad_params sg_eqb sh_eqb shape_of fewer ready1 m fwd o sg = (m', res) ->
  inv m' /\ mods m' = mods m /\ (forall e, res = Ok e -> ev_ok m is_par e) /\ (verify sh_eqb shape_of ready1 m sg = Ok tt -> exists e, res = Ok e).
Proof.
  intros HI H. unfold grad_params in H. destruct (verify sh_eqb shape_of ready1 m sg) as [u|e]; [|injection H as <- <-; split; [exact HI|]; split; [reflexivity|]; split; discriminate].
  destruct (grad_slots fewer m GradParams (g_par m) (auto_par m) fwd o) as [[st g'] a'] eqn:EG. pose proof HI as (_ & _ & _ & _ & C & D).
  destruct (grad_slots_ok m GradParams is_par _ _ _ _ _ _ _ (fun b => ex_intro _ b eq_refl) HI C D EG) as (HS & Hg & Ha).
  match type of H with exec _ ?M _ _ _ = _ => set (m1 := M) in * end.
  assert (HI1 : inv m1).
  { destruct HS as (A & B & C' & D' & F & K). unfold inv, sinv. subst m1. cbn [mods store callable auto g_in auto_in g_par auto_par option_map snd].
    repeat split; try assumption; intros n En; injection En as <-; assumption. }
  destruct (exec_ok m1 _ _ sg is_par m' res HI1 Ha H) as (I1 & I2 & e & -> & I3). split; [exact I1|]. split; [exact I2|]. split; [intros e0 E0; injection E0 as <-; exact I3|]. intros _. exists e. reflexivity.
Qed.

Definition slots_of (m : model) := (callable m, auto m, (g_in m, auto_in m), (g_par m, auto_par m)).
Lemma compile_slots m s p st : slots_of (fst (compile sh_eqb ready1 compile1 m s p st)) = slots_of m /\ store (fst (compile sh_eqb ready1 compile1 m s p st)) = store m.
Proof.
  unfold compile. destruct (negb (sequential m) && is_ready ready1 m)%bool; [split; reflexivity|].
  destruct (sequential m); [destruct (compile_mods compile1 (mods m) s) as [ms [out|e]]; split; reflexivity|].
    destruct (shape_mods compile1 (mods m) s) as [[ss out]|e]; [|split; reflexivity]. destruct (negb (enough compile1 out)); [split; reflexivity|].
    destruct (compile_for compile1 (mods m) ss) as [ms r]; split; reflexivity.
Qed.
Lemma sinv_slots m m' ms st : slots_of m' = slots_of m -> sinv m ms st -> sinv m' ms st.
Proof. unfold slots_of, sinv. intros H. injection H as -> -> -> -> -> ->. auto. Qed.

(** one action: the state afterwards and the event *)
Lemma step_ok m a m' oe ev : (if ev : bool then inv m else uncached m) ->
  step m a = (m', oe) -> (ev = true -> resets a = false -> mods m' = mods m) ->
  (if (if resets a then false else if evaluates a then true else ev) then inv m' else uncached m') /\
  forall e, oe = Some e -> with_pars e = pars m /\ with_sts e = sts m /\ asked a (quantity e) /\
    ((exists f late, G (mods m) f /\ used e = combine (early f) late /\ (late = map snd (mods m) \/ exists sg, In (sg, late) (traces f))) \/ used e = mods m).
Proof.
  intros HI HS Hc.
  assert (HI' : inv m). { destruct ev; [exact HI|]. apply uncached_sinv. exact HI. }
  assert (Hkeep : forall m2 : model, slots_of m2 = slots_of m -> store m2 = store m -> (ev = true -> mods m2 = mods m) -> if ev then inv m2 else uncached m2).
  { intros m2 E1 E2 E3. destruct ev.
    - unfold inv. rewrite (E3 eq_refl), E2. apply (sinv_slots m); [exact E1|exact HI].
    - unfold uncached, slots_of in *. injection E1 as -> -> -> -> -> ->. exact HI. }
  destruct a as [ms|ms p s i o|ms i o|j x|s p st|p|s|sg p s|o sg|f o sg|f o sg]; cbn [resets evaluates] in *.
  - cbn [Cache.step] in HS. injection HS as <- <-. split; [|discriminate]. repeat split; reflexivity.
  - cbn [Cache.step] in HS. injection HS as <- <-. split; [|discriminate]. repeat split; reflexivity.
  - cbn [Cache.step] in HS. injection HS as <- <-. split; [|discriminate]. apply Hkeep; [destruct ms; reflexivity|destruct ms; reflexivity|]. intros Hev. exact (Hc Hev eq_refl).
  - cbn [Cache.step] in HS. injection HS as <- <-. split; [|discriminate]. apply Hkeep; [reflexivity|reflexivity|]. intros Hev. exact (Hc Hev eq_refl).
  - cbn [Cache.step] in HS. unfold quiet in HS. pose proof (compile_slots m s p st) as [C1 C2]. injection HS as <- <-. split; [|discriminate]. apply Hkeep; [exact C1|exact C2|]. intros Hev. exact (Hc Hev eq_refl).
  - cbn [Cache.step] in HS. injection HS as <- <-. split; [|discriminate]. apply Hkeep; [reflexivity|reflexivity|reflexivity].
  - cbn [Cache.step] in HS. injection HS as <- <-. split; [|discriminate]. apply Hkeep; [reflexivity|reflexivity|reflexivity].
  - cbn [Cache.step] in HS. destruct (verify sh_eqb shape_of ready1 m sg); injection HS as <- <-.
    + split; [apply Hkeep; [reflexivity|reflexivity|reflexivity]|]. intros e E0. injection E0 as <-. cbn. auto.
    + split; [|discriminate]. apply Hkeep; [reflexivity|reflexivity|reflexivity].
  - cbn [Cache.step] in HS. unfold eventful in HS. destruct (call sg_eqb sh_eqb shape_of ready1 m o sg) as [m2 res] eqn:EC. cbn [fst snd] in HS. injection HS as <- <-.
    destruct (call_ok m o sg m2 res HI' EC) as (A & _ & B & _). split; [exact A|]. intros e He. destruct res as [e0|]; [|discriminate]. injection He as ->.
    destruct (B e eq_refl) as (B1 & B2 & B3 & B4). split; [exact B1|]. split; [exact B2|]. split; [red in B3; rewrite B3; exact I|]. left. exact B4.
  - cbn [Cache.step] in HS. unfold eventful in HS. destruct (grad_input sg_eqb sh_eqb shape_of fewer ready1 m f o sg) as [m2 res] eqn:EC. cbn [fst snd] in HS. injection HS as <- <-.
    destruct (grad_input_ok m f o sg m2 res HI' EC) as (A & _ & B & _). split; [exact A|]. intros e He. destruct res as [e0|]; [|discriminate]. injection He as ->.
    destruct (B e eq_refl) as (B1 & B2 & (b & B3) & B4). split; [exact B1|]. split; [exact B2|]. split; [rewrite B3; exact I|]. left. exact B4.
  - cbn [Cache.step] in HS. unfold eventful in HS. destruct (grad_params sg_eqb sh_eqb shape_of fewer ready1 m f o sg) as [m2 res] eqn:EC. cbn [fst snd] in HS. injection HS as <- <-.
    destruct (grad_params_ok m f o sg m2 res HI' EC) as (A & _ & B & _). split; [exact A|]. intros e He. destruct res as [e0|]; [|discriminate]. injection He as ->.
    destruct (B e eq_refl) as (B1 & B2 & (b & B3) & B4). split; [exact B1|]. split; [exact B2|]. split; [rewrite B3; exact I|]. left. exact B4.
Qed.

Lemma history_ok : forall l ev m, (if ev : bool then inv m else uncached m) ->
  careful sg_eqb sh_eqb shape_of fewer ready1 compile1 ev m l ->
  forall m1 a e, In (m1, a, Some e) (history sg_eqb sh_eqb shape_of fewer ready1 compile1 m l) ->
  with_pars e = pars m1 /\ with_sts e = sts m1 /\ asked a (quantity e) /\
  ((exists f late, G (mods m1) f /\ used e = combine (early f) late /\ (late = map snd (mods m1) \/ exists sg, In (sg, late) (traces f))) \/ used e = mods m1).
Proof.
  induction l as [|a l IH]; intros ev m HI HC m1 a1 e Hin; cbn [history] in Hin; [destruct Hin|].
  cbn [careful] in HC. destruct HC as [HC1 HC2]. destruct (step m a) as [m' oe] eqn:ES. cbn [fst] in HC1, HC2.
  destruct (step_ok m a m' oe ev HI ES HC1) as [HN HE]. destruct Hin as [Hin|Hin].
  - injection Hin as <- <- ->. apply HE. reflexivity.
  - exact (IH _ m' HN HC2 m1 a1 e Hin).
Qed.
End Proofs.

Section Main.
Context {E L P S Sh Sg : Type} (sg_eqb : Sg -> Sg -> bool) (sh_eqb : Sh -> Sh -> bool) (shape_of : Sg -> Sh)
  (fewer : Sh -> Sh -> bool) (ready1 : modl E L -> bool) (compile1 : compiler E L Sh).
Notation model := (model E L P S Sh Sg). Notation action := (action E L P S Sh Sg). Notation fn := (fn E L Sg).

Definition good (ms : list (modl E L)) (f : fn) : Prop := early f = map fst ms /\ Forall (fun t => snd t = map snd ms) (traces f).
Lemma combine_split' {A B} (l : list (A * B)) : combine (map fst l) (map snd l) = l.
Proof. induction l as [|[a b] l IH]; [reflexivity|]. cbn. rewrite IH. reflexivity. Qed.

Theorem careful_current (m : model) l : uncached m -> careful sg_eqb sh_eqb shape_of fewer ready1 compile1 false m l ->
  forall m1 a e, In (m1, a, Some e) (history sg_eqb sh_eqb shape_of fewer ready1 compile1 m l) ->
  used e = mods m1 /\ with_pars e = pars m1 /\ with_sts e = sts m1 /\ asked a (quantity e).
Proof.
  intros HU HC m1 a e Hin.
  assert (G1 : forall ms w, good ms (mk_fn w (map fst ms) [])) by (intros; split; [reflexivity|constructor]).
  assert (G2 : forall ms f sg, good ms f -> good ms (mk_fn (what_of f) (early f) (traces f ++ [(sg, map snd ms)]))).
  { intros ms f sg [A B]. split; [exact A|]. cbn [traces]. apply Forall_app. split; [exact B|]. constructor; [reflexivity|constructor]. }
  destruct (history_ok sg_eqb sh_eqb shape_of fewer ready1 compile1 good G1 G2 l false m HU HC m1 a e Hin) as (A & B & C & D).
  split; [|auto]. destruct D as [(f & late & [D1 D2] & D3 & D4)|D]; [|exact D]. rewrite D3, D1.
  assert (late = map snd (mods m1)) as ->. { destruct D4 as [D4|(sg & D4)]; [exact D4|]. rewrite Forall_forall in D2. exact (D2 _ D4). }
  apply combine_split'.
Qed.

(** whatever the history, the parameters and state are the current ones *)
Lemma any_step (m : model) a m' oe : inv (fun _ (_ : fn) => True) m -> step sg_eqb sh_eqb shape_of fewer ready1 compile1 m a = (m', oe) ->
  inv (fun _ (_ : fn) => True) m' /\ forall e, oe = Some e -> with_pars e = pars m /\ with_sts e = sts m /\ asked a (quantity e).
Proof.
  intros HI ES.
  assert (Hany : forall ms ms' (m0 : model) st, sinv (fun _ (_ : fn) => True) m0 ms st -> sinv (fun _ (_ : fn) => True) m0 ms' st) by (intros; assumption).
  destruct (resets a) eqn:Er.
    - destruct a; try discriminate; cbn [step] in ES; injection ES as <- <-; (split; [|discriminate]); apply uncached_sinv; repeat split; reflexivity.
    - destruct (evaluates a) eqn:Ee.
      + destruct (step_ok sg_eqb sh_eqb shape_of fewer ready1 compile1 (fun _ _ => True) (fun _ _ => I) (fun _ _ _ _ => I) m a m' oe true HI ES) as [A B].
        { intros _ _. destruct a; try discriminate; cbn [step] in ES; unfold eventful in ES; injection ES as <- _;
          [ destruct (call sg_eqb sh_eqb shape_of ready1 m o sg) as [m2 res] eqn:EC; exact (proj1 (proj2 (call_ok sg_eqb sh_eqb shape_of ready1 (fun _ _ => True) (fun _ _ => I) (fun _ _ _ _ => I) m o sg m2 res HI EC)))
          | destruct (grad_input sg_eqb sh_eqb shape_of fewer ready1 m fwd o sg) as [m2 res] eqn:EC; exact (proj1 (proj2 (grad_input_ok sg_eqb sh_eqb shape_of fewer ready1 (fun _ _ => True) (fun _ _ => I) (fun _ _ _ _ => I) m fwd o sg m2 res HI EC)))
          | destruct (grad_params sg_eqb sh_eqb shape_of fewer ready1 m fwd o sg) as [m2 res] eqn:EC; exact (proj1 (proj2 (grad_params_ok sg_eqb sh_eqb shape_of fewer ready1 (fun _ _ => True) (fun _ _ => I) (fun _ _ _ _ => I) m fwd o sg m2 res HI EC))) ]. }
        rewrite Er, Ee in A. split; [exact A|]. intros e0 He0. destruct (B e0 He0) as (B1 & B2 & B3 & _). auto.
      + assert (HK : forall m2 : model, slots_of m2 = slots_of m -> store m2 = store m -> inv (fun _ (_ : fn) => True) m2).
        { intros m2 E1 E2. unfold inv. rewrite E2. apply (sinv_slots _ m); [exact E1|]. apply (Hany (mods m)). exact HI. }
        destruct a; try discriminate; cbn [step] in ES.
        * injection ES as <- <-. split; [|discriminate]. apply HK; destruct ms; reflexivity.
        * injection ES as <- <-. split; [|discriminate]. apply HK; reflexivity.
        * unfold quiet in ES. injection ES as <- <-. split; [|discriminate]. destruct (compile_slots sh_eqb ready1 compile1 m s p st). apply HK; assumption.
        * injection ES as <- <-. split; [|discriminate]. apply HK; reflexivity.
        * injection ES as <- <-. split; [|discriminate]. apply HK; reflexivity.
        * destruct (verify sh_eqb shape_of ready1 m sg); injection ES as <- <-.
          -- split; [apply HK; reflexivity|]. intros e0 He0. injection He0 as <-. cbn. auto.
          -- split; [exact HI|discriminate].
Qed.
Lemma history_inv : forall l (m : model), inv (fun _ (_ : fn) => True) m ->
  forall m1 a r, In (m1, a, r) (history sg_eqb sh_eqb shape_of fewer ready1 compile1 m l) ->
  inv (fun _ (_ : fn) => True) m1 /\ r = snd (step sg_eqb sh_eqb shape_of fewer ready1 compile1 m1 a).
Proof.
  induction l as [|a l IH]; intros m HI m1 a1 r Hin; cbn [history] in Hin; [destruct Hin|].
  destruct (step sg_eqb sh_eqb shape_of fewer ready1 compile1 m a) as [m' oe] eqn:ES. destruct Hin as [Hin|Hin].
  - injection Hin as <- <- <-. split; [exact HI|]. rewrite ES. reflexivity.
  - destruct (any_step m a m' oe HI ES) as [HN _]. exact (IH m' HN m1 a1 r Hin).
Qed.
Lemma careful_any : forall l (m : model), inv (fun _ (_ : fn) => True) m -> 
  forall m1 a e, In (m1, a, Some e) (history sg_eqb sh_eqb shape_of fewer ready1 compile1 m l) ->
  with_pars e = pars m1 /\ with_sts e = sts m1 /\ asked a (quantity e).
Proof.
  intros l m HI m1 a e Hin. destruct (history_inv l m HI m1 a _ Hin) as [H1 H2].
  destruct (step sg_eqb sh_eqb shape_of fewer ready1 compile1 m1 a) as [m' oe] eqn:ES. exact (proj2 (any_step m1 a m' oe H1 ES) e (eq_sym H2)).
Qed.
Theorem current_values (m : model) l : uncached m -> forall m1 a e, In (m1, a, Some e) (history sg_eqb sh_eqb shape_of fewer ready1 compile1 m l) ->
  with_pars e = pars m1 /\ with_sts e = sts m1 /\ asked a (quantity e).
Proof. intros HU. apply (careful_any l). apply uncached_sinv. exact HU. Qed.

(** evaluating a model that is ready for the given shape never fails *)
Theorem ready_evaluates (m : model) o sg : inv (fun _ (_ : fn) => True) m -> verify sh_eqb shape_of ready1 m sg = Ok tt -> exists m' e, call sg_eqb sh_eqb shape_of ready1 m o sg = (m', Ok e).
Proof.
  intros HI HV. destruct (call sg_eqb sh_eqb shape_of ready1 m o sg) as [m' res] eqn:EC. exists m'.
  destruct res as [e|e]; [exists e; reflexivity|]. exfalso. unfold call in EC. rewrite HV in EC.
  pose proof HI as (A & B & _). 
  assert (Hex : forall m1 r jit, (exists f, nth_error (store m1) r = Some f) -> forall x, exec (P := P) (S := S) (Sh := Sh) sg_eqb m1 jit r sg <> (m', Err x)).
  { intros m1 r jit (f & Hf) x Hx. unfold exec in Hx. rewrite Hf in Hx. destruct (if jit then find_trace sg_eqb f sg else None); injection Hx; discriminate. }
  destruct (callable m) as [r|] eqn:Ec.
  - destruct (A r eq_refl) as (f & Hf & _). destruct (auto m) as [[o0 r0]|] eqn:Ea; [destruct (opts_eqb o0 o)|].
    + destruct (B r0 eq_refl) as (f0 & Hf0 & _). refine (Hex _ _ _ _ _ EC). eauto.
    + refine (Hex _ _ _ _ _ EC). eauto.
    + refine (Hex _ _ _ _ _ EC). eauto.
  - unfold build in EC. assert (HN : forall w, nth_error (store m ++ [mk_fn w (map fst (mods m)) []]) (length (store m)) = Some (mk_fn w (map fst (mods m)) [])).
    { intros w. rewrite nth_error_app2 by lia. rewrite Nat.sub_diag. reflexivity. }
    destruct (auto m) as [[o0 r0]|] eqn:Ea; [destruct (opts_eqb o0 o)|].
    + destruct (B r0 eq_refl) as (f0 & Hf0 & _). refine (Hex _ _ _ _ _ EC). exists f0. cbn [store]. rewrite nth_error_app1; [exact Hf0|]. apply nth_error_Some. congruence.
    + refine (Hex _ _ _ _ _ EC). eexists. apply HN.
    + refine (Hex _ _ _ _ _ EC). eexists. apply HN.
Qed.

(** which actions are answered *)
Definition fit (m : model) (sg : Sg) : Prop :=
  mods m <> [] /\ (forall x, In x (mods m) -> ready1 x = true) /\ exists i o, in_shape m = Some i /\ out_shape m = Some o /\ sh_eqb i (shape_of sg) = true.
Lemma verify_fit (m : model) sg : verify sh_eqb shape_of ready1 m sg = Ok tt <-> fit m sg.
Proof.
  unfold verify, fit, is_ready. split.
  - intros H. destruct (mods m) as [|x ms] eqn:Em; [discriminate|]. cbn [negb andb] in H. split; [discriminate|].
    destruct (forallb ready1 (x :: ms)) eqn:Ef; [|discriminate]. cbn [andb] in H. split; [exact (proj1 (forallb_forall ready1 (x :: ms)) Ef)|].
    destruct (in_shape m) as [i|]; [|discriminate]. destruct (out_shape m) as [o|]; [|discriminate]. cbn [negb andb] in H.
    exists i, o. destruct (sh_eqb i (shape_of sg)); [auto|discriminate].
  - intros (A & B & i & o & -> & -> & C). destruct (mods m) as [|x ms] eqn:Em; [congruence|].
    rewrite (proj2 (forallb_forall ready1 (x :: ms)) B), C. reflexivity.
Qed.
Lemma step_answered (m : model) a sg : inv (fun _ (_ : fn) => True) m ->
  (exists o, a = Call o sg) \/ (exists f o, a = GradIn f o sg) \/ (exists f o, a = GradPar f o sg) \/ (exists p s, a = Train sg p s) ->
  (verify sh_eqb shape_of ready1 m sg = Ok tt <-> exists e, snd (step sg_eqb sh_eqb shape_of fewer ready1 compile1 m a) = Some e).
Proof.
  intros HI Ha. split.
  - intros HV. destruct Ha as [(o & ->)|[(f & o & ->)|[(f & o & ->)|(p & s & ->)]]]; cbn [step]; unfold eventful; cbn [snd].
    + destruct (call sg_eqb sh_eqb shape_of ready1 m o sg) as [m2 res] eqn:EC.
      destruct (call_ok sg_eqb sh_eqb shape_of ready1 (fun _ _ => True) (fun _ _ => I) (fun _ _ _ _ => I) m o sg m2 res HI EC) as (_ & _ & _ & D). destruct (D HV) as (e & ->). exists e. reflexivity.
    + destruct (grad_input sg_eqb sh_eqb shape_of fewer ready1 m f o sg) as [m2 res] eqn:EC.
      destruct (grad_input_ok sg_eqb sh_eqb shape_of fewer ready1 (fun _ _ => True) (fun _ _ => I) (fun _ _ _ _ => I) m f o sg m2 res HI EC) as (_ & _ & _ & D). destruct (D HV) as (e & ->). exists e. reflexivity.
    + destruct (grad_params sg_eqb sh_eqb shape_of fewer ready1 m f o sg) as [m2 res] eqn:EC.
      destruct (grad_params_ok sg_eqb sh_eqb shape_of fewer ready1 (fun _ _ => True) (fun _ _ => I) (fun _ _ _ _ => I) m f o sg m2 res HI EC) as (_ & _ & _ & D). destruct (D HV) as (e & ->). exists e. reflexivity.
    + rewrite HV. eexists. reflexivity.
  - intros (e & He). destruct (verify sh_eqb shape_of ready1 m sg) as [[]|x] eqn:EV; [reflexivity|]. exfalso.
    destruct Ha as [(o & ->)|[(f & o & ->)|[(f & o & ->)|(p & s & ->)]]]; cbn [step] in He; unfold eventful, call, grad_input, grad_params in He; rewrite EV in He; discriminate He.
Qed.

(** the parameters and the state after a step *)
Lemma exec_vals (m : model) jit r sg : pars (fst (exec sg_eqb m jit r sg)) = pars m /\ sts (fst (exec sg_eqb m jit r sg)) = sts m.
Proof. unfold exec. destruct (nth_error (store m) r) as [f|]; [|split; reflexivity]. destruct (if jit then find_trace sg_eqb f sg else None); [split; reflexivity|]. destruct jit; split; reflexivity. Qed.
Lemma step_vals (m : model) a : handed a (match snd (step sg_eqb sh_eqb shape_of fewer ready1 compile1 m a) with Some _ => true | None => false end)
  (pars m) (sts m) (pars (fst (step sg_eqb sh_eqb shape_of fewer ready1 compile1 m a))) (sts (fst (step sg_eqb sh_eqb shape_of fewer ready1 compile1 m a))).
Proof.
  destruct a; cbn [handed step fst snd]; try (split; reflexivity).
  - destruct ms; split; reflexivity.
  - unfold quiet. cbn [fst]. unfold compile. destruct (negb (sequential m) && is_ready ready1 m)%bool; [right; split; reflexivity|].
    destruct (sequential m); [destruct (compile_mods compile1 (mods m) s) as [ms [out|e]]; left; split; reflexivity|].
    destruct (shape_mods compile1 (mods m) s) as [[ss out]|e]; [|right; split; reflexivity]. destruct (negb (enough compile1 out)); [right; split; reflexivity|].
    destruct (compile_for compile1 (mods m) ss) as [ms r]; left; split; reflexivity.
  - destruct (verify sh_eqb shape_of ready1 m sg); split; reflexivity.
  - unfold eventful. cbn [fst]. unfold call. destruct (verify sh_eqb shape_of ready1 m sg); [|split; reflexivity].
    destruct (match callable m with Some r => (store m, r) | None => build m Value end) as [st r].
    destruct (match auto m with Some (o0, r0) => if opts_eqb o0 o then (o0, r0) else (o, r) | None => (o, r) end) as [o' r'].
    match goal with |- context [exec _ ?m' ?j ?r ?g] => exact (exec_vals m' j r g) end.
  - unfold eventful. cbn [fst]. unfold grad_input. destruct (verify sh_eqb shape_of ready1 m sg); [|split; reflexivity].
    destruct (grad_slots fewer m GradInput (g_in m) (auto_in m) fwd o) as [[st g'] a'].
    match goal with |- context [exec _ ?m' ?j ?r ?g] => exact (exec_vals m' j r g) end.
  - unfold eventful. cbn [fst]. unfold grad_params. destruct (verify sh_eqb shape_of ready1 m sg); [|split; reflexivity].
    destruct (grad_slots fewer m GradParams (g_par m) (auto_par m) fwd o) as [[st g'] a'].
    match goal with |- context [exec _ ?m' ?j ?r ?g] => exact (exec_vals m' j r g) end.
Qed.
Lemma history_vals : forall l (m : model),
  (forall m1 a e, In (m1, a, Some e) (history sg_eqb sh_eqb shape_of fewer ready1 compile1 m l) -> with_pars e = pars m1 /\ with_sts e = sts m1) ->
  up_to_date (pars m) (sts m) (map (fun x => (snd (fst x), snd x)) (history sg_eqb sh_eqb shape_of fewer ready1 compile1 m l)).
Proof.
  induction l as [|a l IH]; intros m H; [exact I|]. cbn [history] in *. pose proof (step_vals m a) as HS.
  destruct (step sg_eqb sh_eqb shape_of fewer ready1 compile1 m a) as [m' e]. cbn [fst snd map] in *. cbn [up_to_date]. split.
  - intros ev ->. apply (H m a ev). left. reflexivity.
  - exists (pars m'), (sts m'). split; [exact HS|]. apply IH. intros m1 a1 e1 Hin. apply (H m1 a1 e1). right. exact Hin.
Qed.
End Main.
