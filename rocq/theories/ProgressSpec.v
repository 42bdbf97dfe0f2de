(** What the user should see of the progress bar. *)
From Coq Require Import QArith Ascii.
From Verif Require Import Base Progress.
Local Open Scope list_scope.

(** A text that stays within its line. *)
Definition plain (w : text) : Prop := ~ In cr w /\ ~ In lf w.
(** The line shows this text and nothing else. *)
Definition shows (line w : text) : Prop := exists k, line = w ++ repeat blank k.
Definition label (extra : text) : text := match extra with [] => [] | _ => extra ++ of_str " | " end.
(** [k] of [n] places are filled. *)
Definition picture (extra info : text) (n k : nat) (secs : text) : text :=
  label extra ++ match info with [] => [] | _ => info ++ of_str " " end ++
  of_str "[" ++ repeat hash k ++ repeat blank (n - k) ++ of_str "] (" ++ secs ++ of_str "s)".
(** How many of [n] places are filled for [raw] of [total]. *)
Definition filled (raw total : Q) (n k : nat) : Prop :=
  let q := (raw / total * inject_Z (Z.of_nat n))%Q in
  (inject_Z (Z.of_nat k) <= q)%Q /\ (k <= n)%nat /\ ((k < n)%nat -> (q < inject_Z (Z.of_nat (S k)))%Q).

(** What is reached by calls with plain texts and progress that is not negative:
    the total, the length and the label of the bar, the most places filled so
    far and the time of the first update, all since the last [start]. If [tidy],
    a new bar is only started on a line that is blank (after [end] with
    [newline] or [clearline]). *)
Inductive reach (show : Z -> text) (tidy : Prop) : Q -> nat -> text -> nat -> option Q -> bar * term -> Prop :=
| r_new T n x t : (tiny < T)%Q -> plain x -> shows (t_line t) [] -> (t_pos t <= List.length (t_line t))%nat ->
    reach show tidy T n x 0 None (new T n x, t)
| r_update T n x m since s now raw info k : reach show tidy T n x m since s -> plain info -> (0 <= raw)%Q -> filled raw T n k ->
    reach show tidy T n x (Nat.max m k) (Some match since with Some t => t | None => now end) (does show s (Update now raw info))
| r_end T n x m since s now info nl cl : reach show tidy T n x m since s -> plain info ->
    reach show tidy T n x m since (does show s (End now info nl cl))
| r_start T n x m since s x' : reach show tidy T n x m since s -> plain x' -> (tidy -> shows (t_line (snd s)) []) ->
    reach show tidy T n x' 0 None (does show s (Start x'))
| r_reset T n x m since s now T' n' x' : reach show tidy T n x m since s -> (tiny < T')%Q -> plain x' -> (tidy -> shows (t_line (snd s)) []) ->
    reach show tidy T' n' x' 0 None (does show s (Reset now T' n' x')).
