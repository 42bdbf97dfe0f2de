(** What it means that random numbers are independent: no key is used twice, and
    no key is used from which another one that is used was obtained. *)
From Coq Require Import QArith.
From Verif Require Import Base TreeUtil Draws.
Local Open Scope list_scope.

Definition drawn (p : par) : list draw := match p with One a => [a] | Two a b => [a; b] end.
(** all keys handed to [jax.random.normal] *)
Definition keys_of (ps : list par) : list key := map d_key (flat_map drawn ps).

(** [k'] was obtained from [k] *)
Definition derived (k k' : key) : Prop := exists p, k' = k ++ p.
Definition unrelated (k k' : key) : Prop := ~ derived k k' /\ ~ derived k' k.
Definition independent (ks : list key) : Prop := ForallOrdPairs unrelated ks.

(** the real thing: [sub k i] is the [i]-th key of a split of [k] *)
Definition key_at {K} (sub : K -> nat -> K) (seed : K) (p : key) : K := fold_left sub p seed.
Definition keys_differ {K} (sub : K -> nat -> K) (seed : K) : Prop :=
  forall p q, key_at sub seed p = key_at sub seed q -> p = q.

(** Mean square of real and imaginary part, in units of the squared magnitude:
    a real normal number has 1 and 0, a complex one one half each. *)
Definition spread1 (t : dtype) : Q * Q := match t with F32 => (1 # 1, 0 # 1) | C64 => (1 # 2, 1 # 2) end.
Definition spread (p : par) : Q * Q :=
  match p with
  | One a => spread1 (d_type a)
  | Two a b => let (x, y) := spread1 (d_type a) in let (u, v) := spread1 (d_type b) in ((x + v)%Q, (y + u)%Q)
  end.
(** a real array of size one, or real and imaginary part both of size one *)
Definition balanced (p : par) : Prop := (fst (spread p) == 1 /\ (snd (spread p) == 0 \/ snd (spread p) == 1))%Q.

(** no complex AffineTensor, at any depth *)
Fixpoint tame (m : module) : bool :=
  match m with
  | Tensor _ _ real _ => real
  | Seq ms | Graph ms => forallb tame ms
  | _ => true
  end.
