(** Property C127: models inside models are compiled for what they get. *)
From Coq Require Import Lia.
From Verif Require Import Base BaseLemmas Recompile RecompileSpec.
Local Open Scope list_scope.

Section Main.
Context {Sh : Type} (eqb : Sh -> Sh -> bool) (proper : Sh -> bool).
Context (eqb_spec : forall a b, eqb a b = true -> a = b).
Notation model := (model Sh).
Notation announce := (announce proper).
Notation compile := (compile eqb proper).
Notation progression := (progression proper).
Notation right := (right proper).
Notation good := (good proper).

Lemma model_nested_ind (Q : model -> Prop) : (forall o fit c, Q (Plain o fit c)) -> (forall sh l, Forall Q l -> Q (Seq sh l)) -> (forall sh l, Forall Q l -> Q (Graph sh l)) -> forall m, Q m.
Proof.
  intros H1 H2 H3. fix IH 1. intros [o fit c|sh l|sh l]; [apply H1|apply H2|apply H3]; induction l as [|x l IHl]; constructor; try apply IH; exact IHl.
Qed.
Lemma go_Forall (P : model -> Prop) l : (fix go (l : list model) := match l with [] => True | x :: l' => P x /\ go l' end) l <-> Forall P l.
Proof. induction l as [|x l IH]; [split; [constructor|reflexivity]|]. rewrite IH. split; [intros []; now constructor|intros H; inversion H; now split]. Qed.

(** *** the loops of the model *)
Fixpoint seq_announce (l : list model) (s : Sh) : result Sh := match l with [] => Ok s | x :: l' => let* s' := announce x s in seq_announce l' s' end.
Fixpoint graph_announce (l : list model) (s : Sh) : result Sh := match l with [] => Ok s | x :: l' => let* s' := runtime (announce x s) in graph_announce l' s' end.
Fixpoint seq_compile (l : list model) (s : Sh) : result (list model * Sh) :=
  match l with
  | [] => Ok ([], s)
  | x :: l' => let* x' := runtime (compile x s) in let* s' := announce x' s in let* r := seq_compile l' s' in Ok (x' :: fst r, snd r)
  end.
Fixpoint graph_compile (l : list model) (ss : list Sh) : result (list model) :=
  match l, ss with
  | x :: l', s :: ss' => let* x' := runtime (compile x s) in let* r := graph_compile l' ss' in Ok (x' :: r)
  | _, _ => Ok []
  end.
Lemma announce_Seq sh l s : announce (Seq sh l) s = match (if ready (Seq sh l) then sh else None) with Some io => Ok (snd io) | None => let* r := seq_announce l s in checked proper r end.
Proof. reflexivity. Qed.
Lemma announce_Graph sh l s : announce (Graph sh l) s = match (if ready (Graph sh l) then sh else None) with Some io => Ok (snd io) | None => let* r := graph_announce l s in checked proper r end.
Proof. reflexivity. Qed.
Lemma compile_Seq sh l s : compile (Seq sh l) s = let* r := seq_compile l s in let* out := checked proper (snd r) in Ok (Seq (Some (s, out)) (fst r)).
Proof. reflexivity. Qed.
Lemma compile_Graph sh l s : compile (Graph sh l) s = match (if ready (Graph sh l) then sh else None) with
  | Some io => if eqb s (fst io) then Ok (Graph sh l) else Err AssertionError
  | None => let* p := progression l s in let* out := checked proper (snd p) in let* l' := graph_compile l (fst p) in Ok (Graph (Some (s, out)) l')
  end.
Proof. reflexivity. Qed.
Lemma runtime_ok {A} (r : result A) a : runtime r = Ok a -> r = Ok a.
Proof. destruct r; cbn; congruence. Qed.
Lemma checked_ok s t : checked proper s = Ok t <-> s = t /\ proper t = true.
Proof. unfold checked. destruct (proper s) eqn:E; split; [intros [= <-]; now split|intros [-> _]; reflexivity|discriminate|intros [-> K]; congruence]. Qed.

(** *** right models announce what they give *)
Lemma right_announce m : forall s t, right m s t -> announce m s = Ok t.
Proof.
  induction m as [o fit c|sh l H|sh l H] using model_nested_ind; intros s t R; cbn [RecompileSpec.right] in R.
  - destruct R as [_ R]. exact R.
  - destruct R as (-> & P & R). rewrite announce_Seq. destruct (ready _); [reflexivity|].
    assert (E : seq_announce l s = Ok t); [|rewrite E; cbn [rbind]; apply checked_ok; now split].
    revert s R. induction H as [|x l Hx H IH]; intros s R; cbn in *; [now rewrite R|]. destruct R as (u & R1 & R2). rewrite (Hx s u R1). cbn [rbind]. apply IH. exact R2.
  - destruct R as (-> & P & R). rewrite announce_Graph. destruct (ready _); [reflexivity|].
    assert (E : graph_announce l s = Ok t); [|rewrite E; cbn [rbind]; apply checked_ok; now split].
    revert s R. induction H as [|x l Hx H IH]; intros s R; cbn in *; [now rewrite R|]. destruct R as (u & R1 & R2). rewrite (Hx s u R1). cbn [runtime rbind]. apply IH. exact R2.
Qed.
Lemma right_flows m : forall s t, right m s t -> flows m s t.
Proof.
  induction m as [o fit c|sh l H|sh l H] using model_nested_ind; intros s t R; cbn [RecompileSpec.right flows] in *; [tauto| |];
    (destruct R as (_ & _ & R); revert s R; induction H as [|x l Hx H IH]; intros s R; cbn in *; [exact R|]; destruct R as (u & R1 & R2); exists u; split; [apply Hx; exact R1|apply IH; exact R2]).
Qed.
Lemma unready_none {A} (m : model) (sh : option A) : ready m = false -> (if ready m then sh else None) = None.
Proof. now intros ->. Qed.

(** *** models in which nothing is ready *)
Lemma fresh_flows m : fresh m -> forall s t, announce m s = Ok t -> flows m s t.
Proof.
  induction m as [o fit c|sh l H|sh l H] using model_nested_ind; intros F s t E; [exact E| |]; cbn [fresh flows] in *; destruct F as [N F]; apply go_Forall in F.
  - rewrite announce_Seq, (unready_none _ _ N) in E. apply rbind_ok in E as (r & E & C). apply checked_ok in C as [-> _]. clear N.
    revert s E. induction H as [|x l Hx H IH]; intros s E; cbn [graph_announce seq_announce relay] in *; [now injection E|]. inversion F; subst. apply rbind_ok in E as (u & E1 & E2). exists u. split; [apply Hx; assumption|apply IH; assumption].
  - rewrite announce_Graph, (unready_none _ _ N) in E. apply rbind_ok in E as (r & E & C). apply checked_ok in C as [-> _]. clear N.
    revert s E. induction H as [|x l Hx H IH]; intros s E; cbn [graph_announce seq_announce relay] in *; [now injection E|]. inversion F; subst. apply rbind_ok in E as (u & E1 & E2). apply runtime_ok in E1. exists u. split; [apply Hx; assumption|apply IH; assumption].
Qed.
Lemma fresh_right m : fresh m -> forall s t m', announce m s = Ok t -> compile m s = Ok m' -> right m' s t.
Proof.
  induction m as [o fit c|sh l H|sh l H] using model_nested_ind; intros F s t m' E C.
  - cbn in *. destruct (fit c s); [|discriminate]. injection C as <-. now split.
  - cbn [fresh] in F. destruct F as [N F]; apply go_Forall in F. rewrite announce_Seq, (unready_none _ _ N) in E. rewrite compile_Seq in C. clear N.
    apply rbind_ok in E as (r & E & P). apply checked_ok in P as [-> P]. apply rbind_ok in C as ([l' t'] & C & C'). apply rbind_ok in C' as (out & Po & C'). cbn [fst snd] in *. apply checked_ok in Po as [-> Po]. injection C' as <-.
    assert (G : out = t /\ relay right l' s t); [|destruct G as [-> G]; cbn [RecompileSpec.right]; now repeat split].
    revert s l' E C. induction H as [|x l Hx H IH]; intros s l' E C; cbn [seq_announce seq_compile] in *; [injection E as <-; injection C as <- <-; now split|]. inversion F; subst.
    apply rbind_ok in E as (u & E1 & E2). apply rbind_ok in C as (x' & C1 & C). apply runtime_ok in C1. apply rbind_ok in C as (u' & C2 & C). apply rbind_ok in C as ([l2 t2] & C3 & C). injection C as <- <-. cbn [fst snd] in *.
    pose proof (Hx H2 s u x' E1 C1) as R. rewrite (right_announce x' s u R) in C2. injection C2 as <-. destruct (IH H3 u l2 E2 C3) as [-> K]. split; [reflexivity|]. exists u. now split.
  - cbn [fresh] in F. destruct F as [N F]; apply go_Forall in F. rewrite announce_Graph, (unready_none _ _ N) in E. rewrite compile_Graph, (unready_none _ _ N) in C. clear N.
    apply rbind_ok in E as (r & E & P). apply checked_ok in P as [-> P]. apply rbind_ok in C as ([ss t'] & C & C'). apply rbind_ok in C' as (out & Po & C'). cbn [fst snd] in *. apply checked_ok in Po as [-> Po]. apply rbind_ok in C' as (l' & C' & E'). injection E' as <-.
    assert (G : out = t /\ relay right l' s t); [|destruct G as [-> G]; cbn [RecompileSpec.right]; now repeat split].
    revert s ss l' E C C'. induction H as [|x l Hx H IH]; intros s ss l' E C C'; cbn [graph_announce Recompile.progression graph_compile] in *; [injection E as <-; injection C as <- <-; injection C' as <-; now split|]. inversion F; subst.
    apply rbind_ok in E as (u & E1 & E2). rewrite E1 in C. cbn [rbind] in C. apply runtime_ok in E1. apply rbind_ok in C as ([ss2 t2] & C2 & C). injection C as <- <-. cbn [fst snd] in *.
    apply rbind_ok in C' as (x' & C1 & C'). apply runtime_ok in C1. apply rbind_ok in C' as (l2 & C3 & C'). injection C' as <-.
    destruct (IH H3 u ss2 l2 E2 C2 C3) as [-> K]. split; [reflexivity|]. exists u. split; [exact (Hx H2 s u x' E1 C1)|exact K].
Qed.

(* ------------------------------------------------------------------ *)
(** ** Compiling *)
Theorem C127_compile_partial m : good m -> forall s m' t, compile m s = Ok m' -> announce m' s = Ok t -> right m' s t.
Proof.
  induction m as [o fit c|sh l H|sh l H] using model_nested_ind; intros G s m' t C E.
  - cbn in C. destruct (fit c s); [|discriminate]. injection C as <-. now split.
  - cbn [RecompileSpec.good] in G. apply go_Forall in G. rewrite compile_Seq in C. apply rbind_ok in C as ([l' t'] & C & C'). apply rbind_ok in C' as (out & Po & C'). cbn [fst snd] in *. apply checked_ok in Po as [-> Po]. injection C' as <-.
    assert (K : relay right l' s out).
    { clear E. revert s l' C. induction H as [|x l Hx H IH]; intros s l' C; cbn [seq_compile] in *; [injection C as <- <-; reflexivity|]. inversion G; subst.
      apply rbind_ok in C as (x' & C1 & C). apply runtime_ok in C1. apply rbind_ok in C as (u & C2 & C). apply rbind_ok in C as ([l2 t2] & C3 & C). injection C as <- <-. cbn [fst snd] in *.
      exists u. split; [apply (Hx H2 s x' u C1 C2)|apply IH; assumption]. }
    assert (R : right (Seq (Some (s, out)) l') s out) by (cbn [RecompileSpec.right]; now repeat split). rewrite (right_announce _ _ _ R) in E. injection E as <-. exact R.
  - destruct (ready (Graph sh l)) eqn:Rd.
    + rewrite compile_Graph, Rd in C. destruct sh as [[a b]|]; [|cbn in Rd; rewrite andb_false_r in Rd; discriminate]. destruct (eqb s a) eqn:Q; cbn [fst] in C; rewrite Q in C; [|discriminate]. injection C as <-. apply eqb_spec in Q. subst a.
      destruct G as [_ G]. specialize (G Rd s b eq_refl). rewrite (right_announce _ _ _ G) in E. injection E as <-. exact G.
    + assert (F : fresh (Graph sh l)) by (destruct G as [G _]; split; [exact Rd|exact (G Rd)]). pose proof C as C0. rewrite compile_Graph, Rd in C. apply rbind_ok in C as ([ss out] & C & C'). apply rbind_ok in C' as (out' & Po & C'). cbn [fst snd] in *.
      assert (A : announce (Graph sh l) s = Ok out').
      { rewrite announce_Graph, Rd. assert (X : graph_announce l s = Ok out); [|rewrite X; exact Po]. clear - C. revert s ss C. induction l as [|x l IH]; intros s ss C; cbn in *; [now injection C as _ <-|].
        apply rbind_ok in C as (u & C1 & C). apply rbind_ok in C as ([ss2 t2] & C2 & C). injection C as _ <-. rewrite C1. cbn [rbind]. exact (IH u ss2 C2). }
      pose proof (fresh_right _ F s out' m' A C0) as R. rewrite (right_announce _ _ _ R) in E. injection E as <-. exact R.
Qed.
(** In a model without graph models inside, whatever was compiled before. *)
Fixpoint sequential (m : model) : bool := match m with Plain _ _ _ => true | Seq _ l => forallb sequential l | Graph _ _ => false end.
Theorem C127_sequential m s m' t : sequential m = true -> compile m s = Ok m' -> announce m' s = Ok t -> right m' s t.
Proof.
  intros S. apply C127_compile_partial. induction m as [o fit c|sh l H|sh l H] using model_nested_ind; cbn in *; [exact I| |discriminate]. apply go_Forall.
  rewrite forallb_forall in S. rewrite Forall_forall in *. auto.
Qed.

(** *** compiling again *)
Lemma right_ready m : inhabited m -> forall s t, right m s t -> ready m = true.
Proof.
  induction m as [o fit c|sh l H|sh l H] using model_nested_ind; intros N s t R.
  - destruct R as [-> _]. reflexivity.
  - cbn [inhabited RecompileSpec.right] in *. destruct N as [N1 N2], R as (-> & _ & R). apply go_Forall in N2. cbn [ready]. rewrite andb_true_r. destruct l as [|x0 l0] eqn:El; [congruence|]. rewrite <- El in *. cbn [andb]. replace (match l with [] => false | _ :: _ => true end) with true by now rewrite El.
    clear El N1. cbn [andb]. revert s R. induction H as [|x l Hx H IH]; intros s R; [reflexivity|]. inversion N2; subst. destruct R as (u & R1 & R2). cbn [forallb]. rewrite (Hx H2 _ _ R1). cbn [andb]. exact (IH H3 u R2).
  - cbn [inhabited RecompileSpec.right] in *. destruct N as [N1 N2], R as (-> & _ & R). apply go_Forall in N2. cbn [ready]. rewrite andb_true_r. destruct l as [|x0 l0] eqn:El; [congruence|]. rewrite <- El in *. cbn [andb]. replace (match l with [] => false | _ :: _ => true end) with true by now rewrite El.
    clear El N1. cbn [andb]. revert s R. induction H as [|x l Hx H IH]; intros s R; [reflexivity|]. inversion N2; subst. destruct R as (u & R1 & R2). cbn [forallb]. rewrite (Hx H2 _ _ R1). cbn [andb]. exact (IH H3 u R2).
Qed.
Lemma right_good m : inhabited m -> forall s t, right m s t -> good m.
Proof.
  induction m as [o fit c|sh l H|sh l H] using model_nested_ind; intros N s t R; [exact I| |].
  - cbn [inhabited RecompileSpec.right RecompileSpec.good] in *. destruct N as [_ N], R as (_ & _ & R). apply go_Forall in N. apply go_Forall. revert s R. induction H as [|x l Hx H IH]; intros s R; [constructor|]. inversion N; subst. destruct R as (u & R1 & R2).
    constructor; [exact (Hx H2 _ _ R1)|exact (IH H3 u R2)].
  - pose proof (right_ready _ N s t R) as Y. split; [rewrite Y; discriminate|]. intros _ a b E. pose proof R as R0. destruct R as (E' & _). rewrite E in E'. injection E' as <- <-. exact R0.
Qed.
Lemma compile_inhabited m : inhabited m -> forall s m', compile m s = Ok m' -> inhabited m'.
Proof.
  induction m as [o fit c|sh l H|sh l H] using model_nested_ind; intros N s m' C.
  - cbn in C. destruct (fit c s); [|discriminate]. injection C as <-. exact I.
  - rewrite compile_Seq in C. apply rbind_ok in C as ([l' t'] & C & C'). apply rbind_ok in C' as (out & _ & C'). injection C' as <-. cbn [inhabited fst] in *. destruct N as [N1 N2]. apply go_Forall in N2. split.
    + destruct l as [|x l]; [congruence|]. cbn [seq_compile] in C. apply rbind_ok in C as (? & _ & C). apply rbind_ok in C as (? & _ & C). apply rbind_ok in C as (? & _ & C). injection C as <- _. discriminate.
    + apply go_Forall. clear N1. revert s l' t' C. induction H as [|x l Hx H IH]; intros s l' t' C; cbn [seq_compile] in C; [injection C as <- _; constructor|]. inversion N2; subst.
      apply rbind_ok in C as (x' & C1 & C). apply runtime_ok in C1. apply rbind_ok in C as (u & _ & C). apply rbind_ok in C as ([l2 t2] & C3 & C). injection C as <- _. constructor; [exact (Hx H2 _ _ C1)|exact (IH H3 _ _ _ C3)].
  - rewrite compile_Graph in C. destruct (if ready (Graph sh l) then sh else None) as [io|].
    + destruct (eqb s (fst io)); [|discriminate]. injection C as <-. exact N.
    + apply rbind_ok in C as ([ss t'] & C & C'). apply rbind_ok in C' as (out & _ & C'). apply rbind_ok in C' as (l' & C' & E). injection E as <-. cbn [inhabited fst] in *. destruct N as [N1 N2]. apply go_Forall in N2. split.
      * destruct l as [|x l]; [congruence|]. cbn [Recompile.progression] in C. apply rbind_ok in C as (? & _ & C). apply rbind_ok in C as (? & _ & C). injection C as <- _. cbn [graph_compile] in C'. apply rbind_ok in C' as (? & _ & C'). apply rbind_ok in C' as (? & _ & C'). injection C' as <-. discriminate.
      * apply go_Forall. clear N1 C. revert ss l' C'. induction H as [|x l Hx H IH]; intros ss l' C; cbn [graph_compile] in C; [injection C as <-; constructor|]. destruct ss as [|s1 ss]; [injection C as <-; constructor|]. inversion N2; subst.
        apply rbind_ok in C as (x' & C1 & C). apply runtime_ok in C1. apply rbind_ok in C as (l2 & C3 & C). injection C as <-. constructor; [exact (Hx H2 _ _ C1)|exact (IH H3 _ _ C3)].
Qed.
Lemma fresh_good m : fresh m -> good m.
Proof.
  induction m as [o fit c|sh l H|sh l H] using model_nested_ind; intros F; [exact I| |]; cbn [fresh RecompileSpec.good] in *; destruct F as [N F].
  - apply go_Forall in F. apply go_Forall. rewrite Forall_forall in *. auto.
  - split; [auto|]. rewrite N. discriminate.
Qed.
(** Compiled any number of times, for any shapes, as long as it succeeds. *)
Fixpoint compiles (m : model) (ss : list Sh) : result model := match ss with [] => Ok m | s :: ss' => let* m' := compile m s in compiles m' ss' end.
Definition is_model (m : model) : bool := match m with Plain _ _ _ => false | _ => true end.
Lemma compile_right m s m' : is_model m = true -> good m -> compile m s = Ok m' -> exists t, right m' s t.
Proof.
  intros M G C. assert (A : exists t, announce m' s = Ok t); [|destruct A as [t A]; exists t; exact (C127_compile_partial m G s m' t C A)].
  destruct m as [|sh l|sh l]; [discriminate| |].
  - pose proof C as C0. rewrite compile_Seq in C. apply rbind_ok in C as ([l' t'] & C & C'). apply rbind_ok in C' as (out & Po & C'). injection C' as <-. cbn [fst snd] in *. apply checked_ok in Po as [-> Po].
    exists out. apply right_announce. cbn [RecompileSpec.right]. split; [reflexivity|]. split; [exact Po|]. clear C0 M Po. cbn [RecompileSpec.good] in G. apply go_Forall in G. revert s l' C. induction l as [|x l IH]; intros s l' C; cbn [seq_compile] in C; [injection C as <- <-; reflexivity|]. inversion G; subst.
    apply rbind_ok in C as (x' & C1 & C). apply runtime_ok in C1. apply rbind_ok in C as (u & C2 & C). apply rbind_ok in C as ([l2 t2] & C3 & C). injection C as <- <-. cbn [fst snd] in *. exists u. split; [apply (C127_compile_partial x H1 s x' u C1 C2)|apply IH; assumption].
  - destruct (ready (Graph sh l)) eqn:Rd.
    + rewrite compile_Graph, Rd in C. destruct sh as [[a b]|]; [|cbn in Rd; rewrite andb_false_r in Rd; discriminate]. destruct (eqb s a) eqn:Q; cbn [fst] in C; rewrite Q in C; [|discriminate]. injection C as <-. apply eqb_spec in Q. subst a.
      exists b. apply right_announce. destruct G as [_ G]. exact (G Rd s b eq_refl).
    + assert (F : fresh (Graph sh l)) by (destruct G as [G _]; split; [exact Rd|exact (G Rd)]). pose proof C as C0. rewrite compile_Graph, Rd in C. apply rbind_ok in C as ([ss out] & C & C'). apply rbind_ok in C' as (out' & Po & C'). cbn [fst snd] in *.
      exists out'. apply right_announce. apply (fresh_right _ F s out' m'); [|exact C0].
      rewrite announce_Graph, Rd. assert (X : graph_announce l s = Ok out); [|rewrite X; exact Po]. clear - C. revert s ss C. induction l as [|x l IH]; intros s ss C; cbn in *; [now injection C as _ <-|].
      apply rbind_ok in C as (u & C1 & C). apply rbind_ok in C as ([ss2 t2] & C2 & C). injection C as _ <-. rewrite C1. cbn [rbind]. exact (IH u ss2 C2).
Qed.
Lemma compile_is_model m s m' : compile m s = Ok m' -> is_model m' = is_model m.
Proof.
  destruct m as [o fit c|sh l|sh l]; intros C.
  - cbn in C. destruct (fit c s); [|discriminate]. now injection C as <-.
  - rewrite compile_Seq in C. apply rbind_ok in C as (? & _ & C). apply rbind_ok in C as (? & _ & C). now injection C as <-.
  - rewrite compile_Graph in C. destruct (if ready (Graph sh l) then sh else None) as [io|]; [destruct (eqb s (fst io)); [now injection C as <-|discriminate]|].
    apply rbind_ok in C as (? & _ & C). apply rbind_ok in C as (? & _ & C). apply rbind_ok in C as (? & _ & C). now injection C as <-.
Qed.
Theorem C127_again m ss s m' : is_model m = true -> inhabited m -> fresh m -> compiles m (ss ++ [s]) = Ok m' -> exists t, right m' s t.
Proof.
  intros M N F. apply fresh_good in F. revert m M N F. induction ss as [|a ss IH]; intros m M N G C; cbn [app compiles] in C.
  - apply rbind_ok in C as (m1 & C & E). injection E as ->. exact (compile_right m s m' M G C).
  - apply rbind_ok in C as (m1 & C1 & C). destruct (compile_right m a m1 M G C1) as (t & R). pose proof (compile_inhabited m N a m1 C1) as N1.
    apply (IH m1); [now rewrite (compile_is_model _ _ _ C1)|exact N1|exact (right_good m1 N1 a t R)|exact C].
Qed.

(* ------------------------------------------------------------------ *)
(** ** Asking for the output shape *)
Theorem C127_asked_partial m s t : fresh m -> announce m s = Ok t -> flows m s t.
Proof. intros F. exact (fresh_flows m F s t). Qed.
(** A compiled model gives what it announces for the shape it was compiled for. *)
Theorem C127_asked_compiled m s t : right m s t -> announce m s = Ok t /\ flows m s t.
Proof. intros R. split; [exact (right_announce m s t R)|exact (right_flows m s t R)]. Qed.
End Main.

(* ------------------------------------------------------------------ *)
(** ** Examples: shapes are lists of numbers *)
Definition flat : list nat -> result (list nat) := fun s => Ok [fold_right Nat.mul 1 s].
Definition Flatten c := Plain flat (fun _ _ => true) c.
(** Bias: keeps the shape, and once it has parameters it keeps those. *)
Definition Bias c := Plain (fun s : list nat => Ok s) (fun old s => match old with Some a => if list_eq_dec Nat.eq_dec a s then true else false | None => true end) c.
Definition eqs (a b : list nat) : bool := if list_eq_dec Nat.eq_dec a b then true else false.
Definition proper_shape (s : list nat) : bool := match s with [] => false | _ => true end.
Lemma eqs_spec a b : eqs a b = true -> a = b.
Proof. unfold eqs. destruct (list_eq_dec Nat.eq_dec a b); [auto|discriminate]. Qed.

Example C127_example :
  let m := Graph None [Seq None [Flatten None]; Bias None] in
  let m' := Graph (Some ([4; 5], [20])) [Seq (Some ([4; 5], [20])) [Flatten (Some [4; 5])]; Bias (Some [20])] in
  fresh m /\ good proper_shape m /\ inhabited m /\ compile eqs proper_shape m [4; 5] = Ok m' /\ right proper_shape m' [4; 5] [20] /\
  compile eqs proper_shape m' [4; 5] = Ok m' /\ compile eqs proper_shape m' [2; 3] = Err AssertionError /\
  compile eqs proper_shape (Seq (Some ([2; 3], [6])) [Seq (Some ([2; 3], [6])) [Flatten (Some [2; 3])]; Flatten (Some [6])]) [4; 5] =
    Ok (Seq (Some ([4; 5], [20])) [Seq (Some ([4; 5], [20])) [Flatten (Some [4; 5])]; Flatten (Some [20])]).
Proof.
  cbv zeta. repeat apply conj; try reflexivity; try discriminate; try exact I.
  - cbn. tauto.
  - exists [20]. cbn. split; [|now repeat (econstructor || split)]. repeat split. now exists [20].
Qed.

(** A sequential model that was compiled before, in a graph model that is
    compiled for another shape: the modules behind it are compiled for the shape
    that it gave before. *)
Definition compile_always : Prop := forall (m m' : model (list nat)) s, is_model m = true -> inhabited m ->
  compile eqs proper_shape m s = Ok m' -> exists t, right proper_shape m' s t.
Theorem C127_refuted : ~ compile_always.
Proof.
  intros H. destruct (H (Graph None [Seq (Some ([2; 3], [6])) [Flatten (Some [2; 3])]; Bias None])
    (Graph (Some ([4; 5], [6])) [Seq (Some ([4; 5], [20])) [Flatten (Some [4; 5])]; Bias (Some [6])]) [4; 5]) as (t & R); [reflexivity|cbn; repeat split; discriminate|reflexivity|].
  cbn in R. destruct R as (E & _ & u & (E' & _) & v & (E2 & _) & _). injection E' as <-. discriminate E2.
Qed.
(** The announced output shape of the whole is wrong too. *)
Theorem C127_announced_refuted : ~ (forall (m m' : model (list nat)) s t, is_model m = true -> inhabited m ->
  compile eqs proper_shape m s = Ok m' -> announce proper_shape m' s = Ok t -> flows m' s t).
Proof.
  intros H. assert (F := H (Graph None [Seq (Some ([2; 3], [6])) [Flatten (Some [2; 3])]; Bias None])
    (Graph (Some ([4; 5], [6])) [Seq (Some ([4; 5], [20])) [Flatten (Some [4; 5])]; Bias (Some [6])]) [4; 5] [6] eq_refl ltac:(cbn; repeat split; discriminate) eq_refl eq_refl).
  cbn in F. destruct F as (u & (v & E & E1) & w & E2 & E3). injection E as <-. subst u. injection E2 as <-. discriminate E3.
Qed.
(** A compiled model answers for the shape it was compiled for, whatever it is asked. *)
Theorem C127_asked_refuted : ~ (forall (m : model (list nat)) s t, announce proper_shape m s = Ok t -> flows m s t).
Proof.
  intros H. specialize (H (Seq (Some ([2; 3], [6])) [Flatten (Some [2; 3])]) [4; 5] [6] eq_refl). cbn in H. destruct H as (u & E & E1). injection E as <-. discriminate E1.
Qed.

Print Assumptions C127_compile_partial.
Print Assumptions C127_again.
Print Assumptions C127_refuted.
