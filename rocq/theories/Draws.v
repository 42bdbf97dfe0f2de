(** Model of the random initial parameters: which keys [compile] hands to
    [jax.random.normal].  Everything in /repo/parametricmatrixmodels:
    modules/bias.py L204-248, modules/constant.py L155-224, modules/prelu.py
    L136-191, modules/einsum.py L690-775 (also used by modules/matmul.py L151-155),
    modules/affinehermitianmatrix.py L210-253, modules/affinetensor.py L164-209,
    modules/lowrankaffinehermitianmatrix.py L215-259,
    modules/expectationvaluesum.py L210-273, modules/transitionamplitudesum.py
    L211-273, sequentialmodel.py L124-150, nonsequentialmodel.py L484-526.

    Simplifications.  A key is the path along which it was obtained from the key
    given to the outermost [compile]: the [i]-th key of [jax.random.split(k, n)]
    is [child k i] for every [n] (the keys of splits of different length are not
    assumed to differ).  An array that is drawn is described by its key, its
    shape and its dtype.  What [get_output_shape] says is an argument (it is the
    subject of C16, C50, C53, C65, C68), and so are the shapes inside a graph model.  Modules are values: one object used at several places is
    initialised once only by the code (C103) and is not considered here. *)
From Coq Require Import Arith.
From Verif Require Import Base TreeUtil.
Local Open Scope list_scope.
Local Open Scope nat_scope.

Definition key := list nat.
Definition child (k : key) (i : nat) : key := k ++ [i].
(** [jax.random.split(k, n)] *)
Definition split (k : key) (n : nat) : list key := map (child k) (seq 0 n).

Inductive dtype := F32 | C64.
Record draw := mk_draw { d_key : key; d_shape : list nat; d_type : dtype }.
(** One initial array: [init_magnitude * a] or [init_magnitude * (a + 1j * b)],
    symmetrised afterwards for Hermitian matrices. *)
Inductive par := One (a : draw) | Two (a b : draw).

Definition shapes := tree (list nat).

(** bias.py L211-222 and L224-235, constant.py L175-187, prelu.py L154-168: the
    array of one leaf. *)
Definition init_leaf (real : bool) (k : key) (s : list nat) : par :=
  if real then One (mk_draw k s F32) else Two (mk_draw (child k 0) s C64) (mk_draw (child k 1) s C64).
(** bias.py L237-248, prelu.py L173-191, constant.py L189-224: one key per leaf,
    in the order of [jax.tree.leaves]. *)
Definition init_leaves (k : key) (l : list (bool * list nat)) : list par :=
  map (fun p => init_leaf (fst (snd p)) (fst p) (snd (snd p))) (combine (split k (length l)) l).

(** What the classes hold when [compile] is called.  [given] is what is already
    there: the parameters themselves do not matter, their sizes do where they are
    compared. *)
Inductive module :=
| Plain                                                         (* draws nothing *)
| Bias (given : bool) (real scalar : bool)
| Constant (given trainable : bool) (s : shapes) (real : list bool)
| PReLU (given : option shapes) (real single : bool)
| Einsum (given : bool) (trainable real : bool) (leading : shapes -> result (list (list nat)))
| Hermitian (given : option nat) (n : option nat) (bias : bool)
| Tensor (given : option nat) (dims : list nat) (real bias : bool)
| LowRank (given : option nat) (n r : option nat) (bias : bool)
| Sum (given : option (nat * nat)) (observables outputs : option nat)
| Seq (ms : list module)                                        (* leaves of the module tree *)
| Graph (ms : list module).                                     (* modules in execution order *)

(** The single leaf of the shape, of one axis. *)
Definition one_axis (s : shapes) : result nat := match leaves s with [[d]] => Ok d | _ => Err ValueError end.
Definition two_axes (s : shapes) : result nat := match leaves s with [[n; _]] => Ok n | _ => Err ValueError end.
Definition shape_eqb (s t : list nat) : bool := if list_eq_dec Nat.eq_dec s t then true else false.

(** an error while a module is compiled is a RuntimeError *)
Definition runtime {A} (r : result A) : result A := match r with Ok a => Ok a | Err _ => Err RuntimeError end.

Section Loops.
Context (f : module -> key -> shapes -> result (list par)) (out : module -> shapes -> result shapes).
(** sequentialmodel.py L134-144 *)
Fixpoint in_turn (l : list module) (k : key) (s : shapes) : result (list (list par)) :=
  match l with
  | [] => Ok []
  | m :: l' =>
      let* a := runtime (f m (child k 1) s) in             (* rng, modrng = split(rng) *)
      let* s' := out m s in
      let* r := in_turn l' (child k 0) s' in
      Ok (a :: r)
  end.
(** nonsequentialmodel.py L484-526, with the shapes of L470-483 *)
Fixpoint in_order (l : list module) (k : key) (ss : list shapes) : result (list (list par)) :=
  match l, ss with
  | [], _ => Ok []
  | m :: l', s :: ss' =>
      let* a := runtime (f m (child k 1) s) in             (* rng, module_rng = split(rng) *)
      let* r := in_order l' (child k 0) ss' in
      Ok (a :: r)
  | _ :: _, [] => Err RuntimeError
  end.
End Loops.

Section Compile.
(** equality of shapes; [get_output_shape]; the shapes of [_get_shape_progression]
    (nonsequentialmodel.py L578-690) in execution order *)
Context (eqb : shapes -> shapes -> bool) (out : module -> shapes -> result shapes).
Context (progression : list module -> shapes -> result (list shapes)).

(** [compile] with key [k] and shape [s]: the arrays that are drawn.  The final check
    of the output shape of a model (C135), which draws nothing, is left out. *)
Fixpoint compile (m : module) (k : key) (s : shapes) : result (list par) :=
  match m with
  | Plain => Ok []
  | Bias given real scalar =>
      if given then Ok []
      else if scalar then Ok [init_leaf real k [1]]                                            (* L205, L208-222 *)
      else match s with
           | Leaf d => Ok [init_leaf real k d]                                                 (* L208-222 *)
           | _ => Ok (init_leaves k (map (fun d => (real, d)) (leaves s)))                     (* L223-248 *)
           end
  | Constant given trainable shape real =>
      if given then Ok []
      else if negb trainable then Err ValueError                                               (* L156-161 *)
      else if length real =? length (leaves shape) then Ok (init_leaves k (combine real (leaves shape)))
      else Err ValueError                                                                      (* L209-214 *)
  | PReLU given real single =>
      match given with
      | Some s0 => if eqb s0 s then Ok [] else Err ValueError                                  (* L139-145 *)
      | None => if single then Ok [init_leaf real k [1]]                                       (* L170-171 *)
                else Ok (init_leaves k (map (fun d => (real, d)) (leaves s)))                  (* L173-191 *)
      end
  | Einsum given trainable real leading =>
      let* l := leading s in
      if given then Ok []
      else match l with
           | [] => Ok []
           | _ =>
               if negb trainable then Err ValueError                                           (* L713-717 *)
               else if real
               then Ok (map (fun p => One (mk_draw (fst p) (snd p) F32)) (combine (split k (length l)) l))     (* L720, L728-731 *)
               else Ok (map (fun p => Two (mk_draw (fst (fst p)) (snd p) C64) (mk_draw (snd (fst p)) (snd p) C64))
                          (combine (combine (split (child k 0) (length l)) (split (child k 1) (length l))) l))  (* L722-739 *)
           end
  | Hermitian given n bias =>
      let* d := one_axis s in
      let p := if bias then S d else d in
      match given, n with
      | Some q, _ => if q =? p then Ok [] else Err ValueError
      | None, Some n => Ok [Two (mk_draw (child k 0) [p; n; n] C64) (mk_draw (child k 1) [p; n; n] C64)]       (* L237-251 *)
      | None, None => Err TypeError
      end
  | Tensor given dims real bias =>
      let* d := one_axis s in
      let p := if bias then S d else d in
      match given with
      | Some q => if q =? p then Ok [] else Err ValueError
      | None => Ok [if real then One (mk_draw (child k 0) (p :: dims) F32)                                     (* L193-199 *)
                    else Two (mk_draw (child k 0) (p :: dims) F32) (mk_draw (child k 1) (p :: dims) C64)]      (* L201-209 *)
      end
  | LowRank given n r bias =>
      let* d := one_axis s in
      let p := if bias then S d else d in
      match given, n, r with
      | Some q, _, _ => if q =? p then Ok [] else Err ValueError
      | None, Some n, Some r => Ok [Two (mk_draw (child k 0) [p; n; r] C64) (mk_draw (child k 1) [p; n; r] C64);
                                    One (mk_draw (child k 2) [p; r] F32)]                                      (* L240-259 *)
      | _, _, _ => Err TypeError
      end
  | Sum given l q =>
      match l, q with
      | Some l, Some q =>
          let* n := two_axes s in
          match given with
          | Some (a, b) => if ((a =? n) && (b =? n))%bool then Ok [] else Err ValueError
          | None => Ok [Two (mk_draw (child k 0) [q; l; n; n] C64) (mk_draw (child k 1) [q; l; n; n] C64)]     (* L246-271 *)
          end
      | _, _ => Err ValueError
      end
  | Seq ms => let* l := in_turn compile out ms k s in Ok (concat l)
  | Graph ms =>
      let* ss := progression ms s in
      let* l := in_order compile ms k ss in
      Ok (concat l)
  end.
(** one entry per module *)
Definition compile_each (ms : list module) (k : key) (s : shapes) : result (list (list par)) := in_turn compile out ms k s.
End Compile.
