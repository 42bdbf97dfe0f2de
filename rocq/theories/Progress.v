(** The progress bar (parametricmatrixmodels/progressbar.py) and the line of the
    terminal it is written to.

    Simplifications: numbers are rational numbers (no rounding); the clock does
    not move within a call; the length of the bar is a natural number; a text is
    a list of characters and [show] is [str] of an integer; the terminal is wide
    enough for the line (no wrapping). *)
From Coq Require Import QArith Ascii.
From Verif Require Import Base.
Local Open Scope list_scope.

Definition text := list ascii.
Definition blank : ascii := " "%char.
Definition hash : ascii := "#"%char.
Definition cr : ascii := "013"%char.
Definition lf : ascii := "010"%char.
Definition of_str (s : string) : text := list_ascii_of_string s.
(** [int], towards zero. *)
Definition trunc (q : Q) : Z := Z.quot (Qnum q) (Zpos (Qden q)).
(** [c * n] for a character. *)
Definition rep (c : ascii) (n : Z) : text := repeat c (Z.to_nat n).
Definition tiny : Q := 1 # 1000000000.

Record bar := mk_bar {
  b_total : Q; b_length : nat; b_last : Z; b_first : bool; b_start : option Q; b_longest : nat; b_extra : text }.

Section Bar.
Variable show : Z -> text.

(** [start], L48-55. *)
Definition start (extra : text) (b : bar) : bar :=
  mk_bar (b_total b) (b_length b) 0 true None 0 (extra ++ match extra with [] => [] | _ => of_str " | " end).
(** The constructor, L27-32. *)
Definition new (total : Q) (length : nat) (extra : text) : bar :=
  start extra (mk_bar total length 0 true None 0 []).
(** Padding with blanks and the longest line so far, L83-88 and L113-118. *)
Definition pad (b : bar) (disp : text) : bar * text :=
  let n := List.length disp in
  let set l := mk_bar (b_total b) (b_length b) (b_last b) (b_first b) (b_start b) l (b_extra b) in
  if (n <? b_longest b)%nat then (b, disp ++ repeat blank (b_longest b - n)) else (set n, disp).
Definition spaced (info : text) : text := info ++ match info with [] => [] | _ => [blank] end.
(** [update] at the time [now], with what it writes, L57-93; [starttime] is set
    whenever [first] is [False]. *)
Definition update (now raw : Q) (info : text) (b : bar) : bar * text :=
  if Qle_bool (b_total b) tiny then (b, [])
  else
    let frac := (raw / b_total b)%Q in
    let st := if b_first b then now else match b_start b with Some t => t | None => now end in
    let elapsed := (now - st)%Q in
    let est := if Qle_bool frac tiny then 0%Q else (elapsed / frac)%Q in
    let remaining := (est - elapsed)%Q in
    let progress := Z.min (trunc (frac * inject_Z (Z.of_nat (b_length b)))) (Z.of_nat (b_length b)) in
    let b := mk_bar (b_total b) (b_length b) (b_last b) false (Some st) (b_longest b) (b_extra b) in
    if (b_last b <=? progress)%Z then
      let disp := cr :: b_extra b ++ spaced info ++ of_str "[" ++ rep hash progress ++ rep blank (Z.of_nat (b_length b) - progress)
                  ++ of_str "] (" ++ show (trunc remaining) ++ of_str "s)" in
      let (b, disp) := pad b disp in
      (mk_bar (b_total b) (b_length b) progress (b_first b) (b_start b) (b_longest b) (b_extra b), disp)
    else (b, []).
(** [end], L95-128. *)
Definition finish (now : Q) (info : text) (newline clearline : bool) (b : bar) : bar * text :=
  if Qle_bool (b_total b) tiny then (b, [])
  else
    let st := match b_start b with Some t => t | None => now end in
    let b := mk_bar (b_total b) (b_length b) (b_last b) (b_first b) (Some st) (b_longest b) (b_extra b) in
    let disp := cr :: b_extra b ++ spaced info ++ of_str "[" ++ rep hash (Z.of_nat (b_length b)) ++ of_str "] (" ++ show (trunc (now - st)) ++ of_str "s)" in
    let (b, disp) := pad b disp in
    let disp := if clearline then cr :: repeat blank (List.length disp - 1) ++ [cr] else disp in
    (b, if newline then disp ++ [lf] else disp).
(** [reset], L34-46. *)
Definition reset (now : Q) (total : Q) (length : nat) (extra : text) (b : bar) : bar * text :=
  let b := mk_bar total length 0 true None 0 (b_extra b) in
  let (b, w) := finish now [] false true b in
  (start extra b, w).

(** The terminal: finished lines, the current line, the position in it. *)
Record term := mk_term { t_above : list text; t_line : text; t_pos : nat }.
Definition put (t : term) (c : ascii) : term :=
  if Ascii.eqb c cr then mk_term (t_above t) (t_line t) 0
  else if Ascii.eqb c lf then mk_term (t_above t ++ [t_line t]) [] 0
  else mk_term (t_above t) (firstn (t_pos t) (t_line t) ++ c :: skipn (S (t_pos t)) (t_line t)) (S (t_pos t)).
Definition write (t : term) (w : text) : term := fold_left put w t.

Inductive call :=
| Start (extra : text) | Update (now raw : Q) (info : text) | End (now : Q) (info : text) (newline clearline : bool)
| Reset (now : Q) (total : Q) (length : nat) (extra : text).
Definition does (s : bar * term) (c : call) : bar * term :=
  let (b, t) := s in
  match c with
  | Start extra => (start extra b, t)
  | Update now raw info => let (b, w) := update now raw info b in (b, write t w)
  | End now info nl cl => let (b, w) := finish now info nl cl b in (b, write t w)
  | Reset now total length extra => let (b, w) := reset now total length extra b in (b, write t w)
  end.
Definition runs (s : bar * term) (l : list call) : bar * term := fold_left does l s.
End Bar.
Definition clean : term := mk_term [] [] 0.
