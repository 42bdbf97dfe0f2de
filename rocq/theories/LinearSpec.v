(** What a LinearNN should compute. *)
From Verif Require Import Base NdArray MatMulSpec.
Local Open Scope list_scope.
Local Open Scope nat_scope.

(** Entry [(i, j)] of [y] is entry [j] of [W x_i + c], where [x_i] are the entries
    of sample [i] of [x] in row-major order ([k] of them). *)
Definition affine_image {V} (zero : V) (add mul : V -> V -> V) (b o k : nat) (W : arr V) (c : option (arr V)) (x y : arr V) : Prop :=
  shp y = [b; o] /\
  forall i j, i < b -> j < o ->
    let Wx := total zero add (fun l => mul (cell zero W [j; l]) (nth (i * k + l) (dat x) zero)) k in
    cell zero y [i; j] = match c with Some c => add Wx (cell zero c [j]) | None => Wx end.
