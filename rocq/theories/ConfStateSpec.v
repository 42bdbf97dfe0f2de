(** What can be asked of a conformal model, and how one comes about. *)
From Verif Require Import Base TreeUtil Serial SerialSpec Strata ScalerFile ScalerFileSpec ConfState.
Local Open Scope list_scope.

Section Spec.
Context {N D V A : Type} (n : numerics N D V A).
Notation obj := (cobj N D V A).

(** The public methods that do not calibrate. *)
Inductive query :=
| QCall (X : tree D) (unc : option (tree D)) (l : option (list A))
| QUncertainty (X : tree D) (unc : option (tree D))
| QParameter (X : tree D) (normalize : bool)
| QInput (X : tree D) (unc : option (tree D)) (normalize : bool)
| QDistance (X : tree D) (normalize : bool)
| QQuantile (l : option (list A))
| QName.
Inductive answer := ACall (P : V) (b : list (V * V)) | AVal (v : option V) | AQuantiles (l : list V) | AName (s : name_answer).
Definition ask (q : query) : prog obj answer :=
  match q with
  | QCall X unc l => r <- call n X unc l ;; ret (ACall (fst r) (snd r))
  | QUncertainty X unc => look (fun o => let* u := uncertainty n o X unc in Ok (AVal (Some u)))
  | QParameter X b => look (fun o => let* u := parameter_sensitivity n o X b in Ok (AVal u))
  | QInput X unc b => look (fun o => let* u := input_sensitivity n o X unc b in Ok (AVal u))
  | QDistance X b => look (fun o => let* u := distance_sensitivity n o X b in Ok (AVal u))
  | QQuantile l => r <- get_qhat n l ;; ret (AQuantiles r)
  | QName => look (fun o => Ok (AName (name n o)))
  end.
(** The answers to a sequence of calls. *)
Fixpoint asks (qs : list query) (o : obj) : list (result answer) :=
  match qs with [] => [] | q :: qs' => let '(o', r) := ask q o in r :: asks qs' o' end.
Definition not_name (q : query) : Prop := q <> QName.

(** What is computed from the wrapped model does not depend on the order in which
    dictionaries list their entries; fitted encoders are proper and what they do
    to a leaf does not distinguish a number from an array without axes. *)
Definition fair (ofnat : nat -> N) : Prop :=
  (forall m m', msame m m' -> n_predict n m = n_predict n m' /\ n_spar n m = n_spar n m' /\ n_sinp n m = n_sinp n m' /\
     n_hchecks n m = n_hchecks n m' /\ n_zeros n m = n_zeros n m' /\ n_ccheck n m = n_ccheck n m' /\ n_mname n m = n_mname n m') /\
  (forall e T e', n_fit n e T = Ok e' -> proper e' /\ cls_of e' = CMixed) /\
  indifferent ofnat (n_kern n).

(** Objects that are made by the constructor, calibrated with success any number
    of times, and asked anything in between. *)
Inductive history : obj -> Prop :=
| h_new m alpha q name : history (conf_new m alpha q name)
| h_calibrate o a o' : history o -> calibrate n a o = (o', Ok tt) -> history o'
| h_ask o q : history o -> history (fst (ask q o)).
(** ... also calibrated without success. *)
Inductive any_history : obj -> Prop :=
| g_new m alpha q name : any_history (conf_new m alpha q name)
| g_calibrate o a : any_history o -> any_history (fst (calibrate n a o))
| g_ask o q : any_history o -> any_history (fst (ask q o)).
(** An object later: asked and calibrated any number of times, with or without success. *)
Inductive later : obj -> obj -> Prop :=
| l_here o : later o o
| l_ask o p q : later o p -> later o (fst (ask q p))
| l_calibrate o p a : later o p -> later o (fst (calibrate n a p)).
End Spec.
