(** C118: module classes are checked when they are defined. *)
From Verif Require Import Base BaseLemmas Subclass SubclassSpec SubclassProofs.
Local Open Scope string_scope. Local Open Scope list_scope.

Section Classes.
Context (is_version : string -> bool) (root : body).

Lemma made b base c : define is_version b base = Ok c -> tidy (b :: base) ->
  (c = b :: base /\ ~ concrete c) \/
  (c = wrap_body b :: base /\ concrete c /\ (exists v, lookup_version c = Some (Some v) /\ is_version v = true) /\
    forall m, lookup "__init__" c = Some m -> existsb required (sig m) = false).
Proof.
  intros H T. unfold define in H. destruct (isabstract (b :: base)) eqn:A.
  - injection H as <-. left. split; [reflexivity|]. intros C. apply (isabstract_concrete _ _ T) in C. congruence.
  - right. apply (isabstract_concrete _ _ T) in A. apply concrete_wrap in A. cbv zeta in H. destruct (lookup_version (wrap_body b :: base)) as [[v|]|] eqn:EV; try discriminate.
    destruct (is_version v) eqn:Ev; [|discriminate]. destruct (lookup "__init__" (wrap_body b :: base)) as [m|] eqn:EI.
    + destruct (existsb required (sig m)) eqn:R; [discriminate|]. injection H as <-. rewrite EV, EI. split; [reflexivity|]. split; [exact A|]. split; [eauto|]. intros m' [= <-]. exact R.
    + injection H as <-. rewrite EV, EI. split; [reflexivity|]. split; [exact A|]. split; [eauto|]. discriminate.
Qed.
Lemma tidy_base b base c : define is_version b base = Ok c -> tidy c -> tidy (b :: base).
Proof.
  intros H T. unfold define in H. destruct (isabstract (b :: base)); [injection H as <-; exact T|].
  assert (E : c = wrap_body b :: base).
  { cbv zeta in H. destruct (lookup_version _) as [[v|]|]; try discriminate. destruct (is_version v); [|discriminate]. destruct (lookup _ _) as [m|]; [destruct (existsb _ _); [discriminate|]|]; injection H as <-; reflexivity. }
  subst c. inversion T as [|? ? T1 T2]; subst. constructor; [|exact T2]. cbn in T1. rewrite map_map in T1. exact T1.
Qed.

(** * Every module class objects can be made of has a valid version, and its
    constructor, if its first parameter is called self as usual, needs no
    argument (which loading a model relies on). *)
Theorem C118_checked c : derived is_version root c -> tidy c -> ~ concrete [root] -> concrete c ->
  (exists v, lookup_version c = Some (Some v) /\ is_version v = true) /\
  (forall m, lookup "__init__" c = Some m -> NoDup (map p_name (sig m)) -> usual (sig m) -> takes_object (sig m)).
Proof.
  intros D T R C. destruct D as [|b base c D H]; [contradiction|]. destruct (made b base c H (tidy_base _ _ _ H T)) as [[_ N]|(_ & _ & V & I)]; [contradiction|].
  split; [exact V|]. intros m Hm N U. apply usual_check; auto.
Qed.
(** * Nothing else is asked: a class with a version and such a constructor is
    accepted, and abstract classes always are. *)
Theorem C118_accepted b base m v : tidy (b :: base) -> concrete (b :: base) -> lookup_version (b :: base) = Some (Some v) -> is_version v = true ->
  lookup "__init__" (b :: base) = Some m -> NoDup (map p_name (sig m)) -> usual (sig m) ->
  (define is_version b base = Ok (wrap_body b :: base) <-> takes_object (sig m)) /\
  (~ takes_object (sig m) -> define is_version b base = Err TypeError).
Proof.
  intros T C V Ev I N U. apply (isabstract_concrete _ _ T) in C. unfold define. rewrite C. cbv zeta.
  assert (E1 : lookup_version (wrap_body b :: base) = Some (Some v)) by exact V. rewrite E1, Ev.
  assert (E2 : exists m', lookup "__init__" (wrap_body b :: base) = Some m' /\ sig m' = sig m).
  { rewrite lookup_wrap. cbn in I. destruct (find "__init__" (methods b)) as [x|]; [injection I as ->; exists (wrap m); auto|exists m; auto]. }
  destruct E2 as (m' & -> & ->). pose proof (usual_check _ N U) as Q. destruct (existsb required (sig m)); split; try split; intros H; try discriminate; try reflexivity.
  - apply Q in H. discriminate.
  - apply Q. reflexivity.
  - exfalso. apply H, Q. reflexivity.
Qed.
Theorem C118_abstract b base : tidy (b :: base) -> ~ concrete (b :: base) -> define is_version b base = Ok (b :: base).
Proof.
  intros T C. unfold define. destruct (isabstract (b :: base)) eqn:E; [reflexivity|]. exfalso. apply C, isabstract_concrete; auto.
Qed.
(** * Methods are checked at run time if the class that defines them is one
    objects can be made of. *)
Theorem C118_typed_partial c : derived is_version root c -> tidy c -> forall pre d post, c = pre ++ d :: post -> post <> [] -> concrete (d :: post) ->
  forall name m, find name (methods d) = Some m -> typed m = true.
Proof.
  induction 1 as [|b base c D IH H]; intros T pre d post E P C name m F.
  - destruct pre as [|x pre]; [injection E as <- <-; contradiction|]. injection E as _ E. destruct pre; discriminate.
  - pose proof (tidy_base _ _ _ H T) as T'. inversion T' as [|? ? _ T2]; subst. destruct (made b base _ H T') as [[E' N]|(E' & _)].
    + destruct pre as [|x pre]; [cbn [app] in *; contradiction|]. rewrite E' in *. injection E' as E1 E2. eapply IH; [exact T2| |exact P|exact C|exact F]. symmetry. exact E2.
    + destruct pre as [|x pre].
      * cbn [app] in E'. injection E' as -> ->. cbn [wrap_body methods] in F. rewrite find_wrap in F. destruct (find name (methods b)); [injection F as <-; reflexivity|discriminate].
      * injection E' as E1 E2. eapply IH; [exact T2| |exact P|exact C|exact F]. symmetry. exact E2.
Qed.
End Classes.

(** ** Examples *)
Definition self_ : param := mk_param "self" PositionalOrKeyword false.
Definition plain (s : signature) : method := mk_method false s false.
Definition x_root : body := mk_body [("__init__", mk_method true [self_] false); ("compile", mk_method true [self_] false); ("freeze", plain [self_])] None.
(** [class Model(BaseModule)] (abstract, with a method), and classes of users. *)
Definition x_model : body := mk_body [("__init__", plain [self_; mk_param "modules" PositionalOrKeyword true]); ("set_rng", plain [self_])] (Some (Some "0.1")).
Definition x_net : body := mk_body [("compile", plain [self_])] None.
Definition x_bad : body := mk_body [("__init__", plain [self_; mk_param "size" PositionalOrKeyword false]); ("compile", plain [self_])] (Some (Some "1.0")).
Definition x_version (s : string) : bool := negb (String.eqb s "first").
Definition x_net_class : cls := [wrap_body x_net; x_model; x_root].
Lemma x_net_derived : derived x_version x_root x_net_class.
Proof. apply (d_define _ _ x_net [x_model; x_root]); [apply (d_define _ _ x_model [x_root]); [constructor|]|]; reflexivity. Qed.
Lemma x_tidy : tidy x_net_class.
Proof. repeat constructor; cbn; intuition discriminate. Qed.
Lemma x_concrete : concrete x_net_class.
Proof. apply isabstract_concrete; [exact x_tidy|reflexivity]. Qed.
Example C118_example :
  derived x_version x_root x_net_class /\ tidy x_net_class /\ ~ concrete [x_root] /\ concrete x_net_class /\
  define x_version x_bad [x_root] = Err TypeError /\
  define x_version (mk_body (methods x_bad) (Some (Some "first"))) [x_root] = Err ValueError /\
  define x_version (mk_body (methods x_bad) None) [x_root] = Err NotImplementedError /\
  usual (sig (plain [self_; mk_param "modules" PositionalOrKeyword true])) /\
  find "compile" (methods (wrap_body x_net)) = Some (mk_method false [self_] true).
Proof.
  split; [exact x_net_derived|]. split; [exact x_tidy|]. split; [intros C; specialize (C "compile" _ eq_refl); discriminate|]. split; [exact x_concrete|].
  repeat split. exists self_, [mk_param "modules" PositionalOrKeyword true]. repeat split. right. reflexivity.
Qed.

(** The documentation: all methods of all subclasses are checked at run time. *)
Definition all_typed_always : Prop :=
  forall is_version root c, derived is_version root c -> tidy c -> ~ concrete [root] -> concrete c ->
  forall pre d post, c = pre ++ d :: post -> post <> [] -> forall name m, find name (methods d) = Some m -> typed m = true.
(** Methods inherited from an abstract class (like Model) are not. *)
Theorem C118_refuted :
  lookup "set_rng" x_net_class = Some (plain [self_]) /\ ~ all_typed_always.
Proof.
  split; [reflexivity|]. intros A.
  specialize (A _ _ _ x_net_derived x_tidy ltac:(intros C; specialize (C "compile" _ eq_refl); discriminate) x_concrete
    [wrap_body x_net] x_model [x_root] eq_refl ltac:(discriminate) "set_rng" _ eq_refl). discriminate.
Qed.
(** The check goes by names: with any other name for the first parameter a
    constructor without further parameters is refused, and a parameter called
    self is not looked at. *)
Definition constructors_always : Prop :=
  forall is_version b base m v, tidy (b :: base) -> concrete (b :: base) -> lookup_version (b :: base) = Some (Some v) -> is_version v = true ->
  lookup "__init__" (b :: base) = Some m -> legal (sig m) ->
  (define is_version b base = Ok (wrap_body b :: base) <-> takes_object (sig m)).
Definition x_this : body := mk_body [("__init__", plain [mk_param "this" PositionalOrKeyword false]); ("compile", plain [self_])] (Some (Some "1.0")).
Definition x_args : body := mk_body [("__init__", plain [mk_param "args" VarPositional false; mk_param "self" KeywordOnly false]); ("compile", plain [self_])] (Some (Some "1.0")).
Theorem C118_names_refuted :
  (define x_version x_this [x_root] = Err TypeError /\ takes_object (sig (plain [mk_param "this" PositionalOrKeyword false]))) /\
  (define x_version x_args [x_root] = Ok (wrap_body x_args :: [x_root]) /\ ~ takes_object (sig (plain [mk_param "args" VarPositional false; mk_param "self" KeywordOnly false]))) /\
  ~ constructors_always.
Proof.
  assert (H : takes_object [mk_param "this" PositionalOrKeyword false]) by (left; exists (mk_param "this" PositionalOrKeyword false), []; repeat split; [right; reflexivity|intros q []]).
  split; [split; [reflexivity|exact H]|]. split.
  - split; [reflexivity|]. cbn [plain sig]. intros [(p & s & E & [P|P] & _)|(_ & _ & Q)].
    + injection E as <- _. discriminate.
    + injection E as <- _. discriminate.
    + destruct (Q (mk_param "self" KeywordOnly false)) as [E|[E|E]]; [right; left; reflexivity|discriminate|discriminate|discriminate].
  - intros A. assert (T : tidy (x_this :: [x_root])) by (repeat constructor; cbn; intuition discriminate).
    destruct (A x_version x_this [x_root] _ "1.0" T ltac:(apply isabstract_concrete; [exact T|reflexivity]) eq_refl eq_refl eq_refl) as [_ B].
    + cbn [sig plain]. split; [repeat constructor; intros []|]. split.
      * intros [|x s1] p q s2 E Hq; [injection E as <- <-; destruct Hq|destruct s1; discriminate].
      * intros p [ <- | [] ] _. reflexivity.
    + specialize (B H). discriminate.
Qed.

Print Assumptions C118_checked.
Print Assumptions C118_accepted.
Print Assumptions C118_abstract.
Print Assumptions C118_typed_partial.
Print Assumptions C118_refuted.
Print Assumptions C118_names_refuted.
