(** Specification of "evaluation uses the current modules". *)
From Verif Require Import Base Cache.
Local Open Scope list_scope.

Section Spec.
Context {E L P S Sh Sg : Type} (sg_eqb : Sg -> Sg -> bool) (sh_eqb : Sh -> Sh -> bool) (shape_of : Sg -> Sh)
  (fewer : Sh -> Sh -> bool) (ready1 : modl E L -> bool) (compile1 : compiler E L Sh).
Notation model := (model E L P S Sh Sg). Notation action := (action E L P S Sh Sg).
Notation step := (step sg_eqb sh_eqb shape_of fewer ready1 compile1).

(** a model as built by its constructor: nothing cached *)
Definition uncached (m : model) : Prop :=
  callable m = None /\ auto m = None /\ g_in m = None /\ auto_in m = None /\ g_par m = None /\ auto_par m = None.

(** actions that replace the modules by a method that resets the model *)
Definition resets (a : action) : bool := match a with Edit _ | Deserialize _ _ _ _ _ => true | _ => false end.
Definition evaluates (a : action) : bool := match a with Call _ _ | GradIn _ _ _ | GradPar _ _ _ => true | _ => false end.
(** modules are changed by compilation, by new hyper-parameters or in place only
    before the first evaluation after a reset *)
Fixpoint careful (evaluated : bool) (m : model) (l : list action) : Prop :=
  match l with
  | [] => True
  | a :: l' =>
      (evaluated = true -> resets a = false -> mods (fst (step m a)) = mods m) /\
      careful (if resets a then false else if evaluates a then true else evaluated) (fst (step m a)) l'
  end.

(** the quantity asked for *)
Definition asked (a : action) (w : what) : Prop :=
  match a, w with
  | Call _ _, Value | Train _ _ _, Value | GradIn _ _ _, GradInput _ | GradPar _ _ _, GradParams _ => True
  | _, _ => False
  end.

(** what an action does to the parameters and the state: new ones are those handed
    to it ([Compile]: those drawn, unless it finds the model ready) *)
Definition handed (a : action) (happened : bool) (p : P) (s : S) (p' : P) (s' : S) : Prop :=
  match a with
  | SetParams q => p' = q /\ s' = s
  | SetState t => p' = p /\ s' = t
  | Deserialize _ q t _ _ => p' = q /\ s' = t
  | Train _ q t => if happened then p' = q /\ s' = t else p' = p /\ s' = s
  | Compile _ q t => (p' = q /\ s' = t) \/ (p' = p /\ s' = s)
  | _ => p' = p /\ s' = s
  end.
(** along a sequence of actions that starts with parameters [p] and state [s], every
    evaluation is with the values last handed over *)
Fixpoint up_to_date (p : P) (s : S) (l : list (action * option (event E L P S))) : Prop :=
  match l with
  | [] => True
  | (a, e) :: l' =>
      (forall ev, e = Some ev -> with_pars ev = p /\ with_sts ev = s) /\
      exists p' s', handed a (match e with Some _ => true | None => false end) p s p' s' /\ up_to_date p' s' l'
  end.
End Spec.
