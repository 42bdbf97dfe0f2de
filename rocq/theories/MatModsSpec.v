(** How users arrive at a matrix module, and what they may expect of one that
    was compiled. *)
From Coq Require Import ZArith.
From Verif Require Import Base TreeUtil NonSeqSpec Serial Modules Composite MatMods.
Local Open Scope list_scope.
Local Open Scope nat_scope.

Section Herm.
Context (herm : arr -> bool).

(** What the constructors return. *)
Inductive constructed : mkind -> obj -> Prop :=
| con_herm n s Ms g b o : ahm_init herm n s Ms g b = Ok o -> constructed KHerm o
| con_low n r s g b o : lr_init n r s g b = Ok o -> constructed KLow o
| con_tensor sh Ms g b re o : at_init sh Ms g b re = Ok o -> constructed KTensor o
| con_exp l q Ds g ce o : evs_init herm l q Ds g ce = Ok o -> constructed KExp o
| con_trans l q Ds g ce o : evs_init herm l q Ds g ce = Ok o -> constructed KTrans o.

(** Random arrays have the shape asked for; those that are made Hermitian are. *)
Definition draws (draw : list nat -> arr) : Prop := forall s, a_shape (draw s) = s /\ herm (draw s) = true.

(** A module after any calls of its methods, and the shape it was last compiled
    for. [fits] restricts the parameters handed to [set_params], hyper-parameters
    are those of another module of the class. *)
Inductive reached (fits : mkind -> obj -> option (tree (list nat)) -> pv -> Prop) (k : mkind)
  : obj -> option (tree (list nat)) -> Prop :=
| re_new o : constructed k o -> reached fits k o None
| re_par o c p o' : reached fits k o c -> fits k o c p -> set_par (mod_cls herm k) o p = Ok o' -> reached fits k o' c
| re_hyp o c o1 h o' : reached fits k o c -> constructed k o1 -> get_hyper (mod_cls herm k) o1 = Ok h ->
    set_hyper (mod_cls herm k) o h = Ok o' -> reached fits k o' c
| re_trn o c b : reached fits k o c -> reached fits k (set_trainable o b) c
| re_comp o c draw t o' : reached fits k o c -> draws draw -> compile k draw o t = Ok o' -> reached fits k o' (Some t).

(** Any parameters. *)
Definition anything (_ : mkind) (_ : obj) (_ : option (tree (list nat))) (_ : pv) : Prop := True.

(** The two factors of a low rank module count the same matrices; a sum that
    was compiled gets observables of the size it has. *)
Definition consistent (k : mkind) (o : obj) (c : option (tree (list nat))) (p : pv) : Prop :=
  match k, p with
  | KLow, VTup [VArr ls; VArr us] => hd 0 (a_shape ls) = hd 0 (a_shape us)
  | (KExp | KTrans), VArr m => c <> None -> exists m0, get_par (mod_cls herm k) o = Ok (VArr m0) /\ a_shape m0 = a_shape m
  | _, _ => True
  end.

(** For every batch size the module runs, and gives the shapes it announces
    with the batch axis in front. *)
Definition runs (k : mkind) (o : obj) (t : tree (list nat)) : Prop :=
  exists s : tree (list nat),
    out_shape k o t = Ok (tmap (fun l => Some (map Some l)) s) /\
    forall b, call k o (tmap (cons b) t) = Ok (tmap (cons b) s).
End Herm.
