(** Lemmas on access by path. *)
From Coq Require Import ZArith.
From Verif Require Import Base BaseLemmas TreeUtil Edit EditSpec EditProofs Access AccessSpec.
Local Open Scope list_scope.

Lemma key_eqb_eq a b : key_eqb a b = true <-> a = b.
Proof.
  destruct a, b; cbn; try (split; [discriminate|intros H; discriminate H]).
  - rewrite String.eqb_eq. split; [now intros ->|now intros [= ->]].
  - rewrite Z.eqb_eq. split; [now intros ->|now intros [= ->]].
  - split; reflexivity.
  - rewrite Nat.eqb_eq. split; [now intros ->|now intros [= ->]].
Qed.
Lemma key_refl k : key_eqb k k = true.
Proof. apply key_eqb_eq. reflexivity. Qed.

(** *** dictionaries *)
Lemma klook_some d k x : klook d k = Some x -> exists p q, d = p ++ (k, x) :: q /\ ~ In k (map fst p) /\ forall y, kset d k y = p ++ (k, y) :: q.
Proof.
  induction d as [|[k' y] d IH]; cbn; [discriminate|]. destruct (key_eqb k k') eqn:E.
  - intros H. injection H as ->. apply key_eqb_eq in E as ->. exists [], d. cbn. auto.
  - intros H. destruct (IH H) as (p & q & -> & N & S). exists ((k', y) :: p), q. split; [reflexivity|]. split.
    + cbn. intros [ -> |H']; [|exact (N H')]. rewrite key_refl in E. discriminate.
    + intros z. cbn. now rewrite S.
Qed.
Lemma klook_none d k : klook d k = None -> ~ In k (map fst d) /\ forall y, kset d k y = d ++ [(k, y)].
Proof.
  induction d as [|[k' y] d IH]; cbn; [auto|]. destruct (key_eqb k k') eqn:E; [discriminate|]. intros H. destruct (IH H) as [N S].
  split; [|intros z; now rewrite S]. intros [ -> |H']; [|exact (N H')]. rewrite key_refl in E. discriminate.
Qed.
Lemma klook_kset d k x : klook (kset d k x) k = Some x.
Proof. induction d as [|[k' y] d IH]; cbn; [now rewrite key_refl|]. destruct (key_eqb k k') eqn:E; cbn; rewrite E; auto. Qed.
Lemma klook_nth d k x i : NoDup (map fst d) -> nth_error d i = Some (k, x) -> klook d k = Some x.
Proof.
  revert i. induction d as [|[k' y] d IH]; intros [|i] N H; try discriminate; cbn in *; inversion N as [|? ? N1 N2]; subst.
  - injection H as -> ->. now rewrite key_refl.
  - destruct (key_eqb k k') eqn:E; [|eauto]. apply key_eqb_eq in E as ->. exfalso. apply N1. apply nth_error_In in H. apply (in_map fst) in H. exact H.
Qed.

(** *** sequences *)
Lemma points_unique {A} (l : list A) z i j : points z l i -> points z l j -> i = j.
Proof. unfold points. lia. Qed.
Lemma py_get_points {A} (l : list A) z x : py_get l z = Ok x <-> exists i, points z l i /\ nth_error l i = Some x.
Proof.
  unfold py_get. split.
  - destruct (index l z) as [k|] eqn:E; cbn; [|discriminate]. destruct (nth_error l k) eqn:F; [|discriminate]. intros H. injection H as ->.
    exists k. split; [exact (index_ok l z k E)|exact F].
  - intros (i & P & F). assert (R : in_range z l) by (unfold points, in_range in *; lia). destruct (index_in_range l z R) as (k & E). rewrite E. cbn.
    rewrite (points_unique l z k i (index_ok l z k E) P), F. reflexivity.
Qed.
Lemma py_set_get {A} (l : list A) z x y : py_get l z = Ok x -> exists p q, l = p ++ x :: q /\ points z l (length p) /\ py_set l z y = Ok (p ++ y :: q).
Proof.
  unfold py_get, py_set. destruct (index l z) as [k|] eqn:E; cbn; [|discriminate]. destruct (nth_error l k) eqn:F; [|discriminate]. intros H. injection H as ->.
  destruct (nth_split' l k x F) as [E1 E2]. exists (firstn k l), (skipn (S k) l). split; [exact E1|]. split; [rewrite E2; exact (index_ok l z k E)|reflexivity].
Qed.
Lemma points_replace {A} z (p q : list A) x y : points z (p ++ x :: q) (length p) -> points z (p ++ y :: q) (length p).
Proof. unfold points. rewrite !app_length. cbn. lia. Qed.
Lemma nth_mid {A} (p q : list A) x : nth_error (p ++ x :: q) (length p) = Some x.
Proof. rewrite nth_error_app2, Nat.sub_diag by lia. reflexivity. Qed.
Lemma py_set_back {A} (l l' : list A) z y : py_set l z y = Ok l' -> py_get l' z = Ok y /\ exists x, py_get l z = Ok x.
Proof.
  intros H. assert (G : exists x, py_get l z = Ok x).
  { unfold py_set in H. destruct (index l z) as [k|] eqn:E; [|discriminate]. destruct (points_nth l z k (index_ok l z k E)) as (x & Ex). exists x. unfold py_get. rewrite E. cbn. now rewrite Ex. }
  destruct G as (x & Gx). split; [|eauto]. destruct (py_set_get l z x y Gx) as (p & q & -> & P & S). rewrite S in H. injection H as <-.
  apply py_get_points. exists (length p). split; [exact (points_replace z p q x y P)|apply nth_mid].
Qed.

(** *** one step *)
Definition is_mdl (n : node) : Prop := match n with Mdl _ _ _ => True | _ => False end.
Lemma item_at n k c : item n k = Ok c -> exists i, names n k i /\ nth_error (kids n) i = Some c /\
  forall a x c', replaced_at a x c c' -> replaced_at (i :: a) x n (change_item n k c').
Proof.
  destruct n as [m r|i o m|d|l|l]; cbn [item change_item]; try discriminate.
  - destruct (klook d k) as [y|] eqn:E; [|discriminate]. intros H. injection H as ->. destruct (klook_some d k c E) as (p & q & -> & _ & S).
    exists (length p). split; [constructor 1 with c; apply nth_mid|]. split.
    + cbn. rewrite map_app. cbn. rewrite <- (map_length snd p). apply nth_mid.
    + intros a x c' R. rewrite S. now constructor.
  - destruct k as [s|z| |j]; try discriminate. intros H. pose proof (py_set_get l z c c H) as (p & q & -> & P & _).
    exists (length p). split; [now constructor|]. split; [cbn; apply nth_mid|]. intros a x c' R.
    destruct (py_set_get _ z c c' H) as (p' & q' & E & P' & S). rewrite S.
    assert (EL : length p' = length p) by exact (points_unique _ z _ _ P' P). rewrite E, <- EL. now constructor.
  - destruct k as [s|z| |j]; try discriminate. intros H. pose proof (py_set_get l z c c H) as (p & q & -> & P & _).
    exists (length p). split; [now constructor|]. split; [cbn; apply nth_mid|]. intros a x c' R.
    destruct (py_set_get _ z c c' H) as (p' & q' & E & P' & S). rewrite S.
    assert (EL : length p' = length p) by exact (points_unique _ z _ _ P' P). rewrite E, <- EL. now constructor.
Qed.
Lemma names_item n k i c : wf n -> names n k i -> nth_error (kids n) i = Some c -> item n k = Ok c.
Proof.
  intros W N K. destruct N as [d i k x H|l z i P|l z i P]; cbn in *.
  - inversion W as [| |d0 ND FA| |]; subst. rewrite (klook_nth d k x i ND H). f_equal. rewrite nth_error_map, H in K. cbn in K. congruence.
  - apply py_get_points. eauto.
  - apply py_get_points. eauto.
Qed.
Lemma names_not_mdl n k i : names n k i -> ~ is_mdl n.
Proof. destruct 1; cbn; auto. Qed.

Lemma get1_at n k c : get1 n k = Ok c -> exists a, leads n k a /\ node_at n a = Some c /\
  forall b x c', replaced_at b x c c' -> replaced_at (a ++ b) x n (change n k c').
Proof.
  assert (A : forall n, item n k = Ok c -> change n k = change_item n k -> exists a, leads n k a /\ node_at n a = Some c /\
    forall b x c', replaced_at b x c c' -> replaced_at (a ++ b) x n (change n k c')).
  { intros m H E. destruct (item_at m k c H) as (i & N & K & R). exists [i]. split; [now constructor|]. split; [cbn [node_at]; now rewrite K|].
    intros b x c' B. rewrite E. cbn [app]. auto. }
  destruct n as [m r|i o m|d|l|l]; cbn [get1]; try (intros H; apply (A _ H); reflexivity).
  assert (B : forall s, k = s -> s <> KN -> (let* _ := fits m s in item m s) = Ok c -> exists a, leads (Mdl i o m) s a /\ node_at (Mdl i o m) a = Some c /\
    forall b x c', replaced_at b x c c' -> replaced_at (a ++ b) x (Mdl i o m) (change (Mdl i o m) s c')).
  { intros s -> K H. destruct (fits m s) as [u|] eqn:F; [|discriminate]. cbn [rbind] in H. destruct (item_at m s c H) as (j & N & Kd & R).
    exists [0; j]. split.
    - destruct s as [t|z| |t]; destruct m as [w v|w v w'|d|l|l]; try discriminate F; try (now constructor); congruence.
    - split; [cbn [node_at kids nth_error]; now rewrite Kd|]. intros b x c' Rb. cbn [app].
      destruct s as [t|z| |t]; try congruence; cbn [change]; constructor; auto. }
  destruct k as [s|z| |j].
  - intros H. apply B; congruence.
  - intros H. apply B; congruence.
  - intros H. injection H as ->. exists [0]. split; [apply l_all|]. split; [reflexivity|]. intros b x c' R. cbn [app change]. now constructor.
  - intros H. apply B; congruence.
Qed.
Lemma leads_get1 n k a c : wf n -> leads n k a -> node_at n a = Some c -> get1 n k = Ok c.
Proof.
  intros W L K. destruct L as [n k i N|i o m|i o d s j N|i o l z j N|i o l z j N]; cbn [node_at kids nth_error] in K.
  - destruct (nth_error (kids n) i) as [y|] eqn:E; [|discriminate]. cbn [node_at] in K. injection K as ->. assert (X := names_item n k i c W N E).
    destruct n; try exact X. destruct (names_not_mdl _ _ _ N I).
  - now injection K as ->.
  - inversion W; subst. cbn [node_at nth_error] in K; change (match nth_error (kids (DictN d)) j with Some c0 => Some c0 | None => None end = Some c) in K; destruct (nth_error (kids (DictN d)) j) as [y|] eqn:E; [|discriminate]. injection K as ->. exact (names_item _ _ _ c H0 N E).
  - inversion W; subst. cbn [node_at nth_error] in K; change (match nth_error (kids (ListN l)) j with Some c0 => Some c0 | None => None end = Some c) in K; destruct (nth_error (kids (ListN l)) j) as [y|] eqn:E; [|discriminate]. injection K as ->. exact (names_item _ _ _ c H0 N E).
  - inversion W; subst. cbn [node_at nth_error] in K; change (match nth_error (kids (TupN l)) j with Some c0 => Some c0 | None => None end = Some c) in K; destruct (nth_error (kids (TupN l)) j) as [y|] eqn:E; [|discriminate]. injection K as ->. exact (names_item _ _ _ c H0 N E).
Qed.
Lemma wf_kid n i c : wf n -> nth_error (kids n) i = Some c -> wf c.
Proof.
  intros W K. inversion W as [m r|a b m Wm|d ND FA|l FA|l FA]; subst; cbn in K.
  - destruct i; discriminate.
  - destruct i as [|[|]]; [now injection K as <-|discriminate|discriminate].
  - rewrite nth_error_map in K. destruct (nth_error d i) as [[k y]|] eqn:E; [|discriminate]. injection K as ->. rewrite Forall_forall in FA.
    exact (FA (k, c) (nth_error_In _ _ E)).
  - rewrite Forall_forall in FA. exact (FA c (nth_error_In _ _ K)).
  - rewrite Forall_forall in FA. exact (FA c (nth_error_In _ _ K)).
Qed.
Lemma wf_at n a c : wf n -> node_at n a = Some c -> wf c.
Proof.
  revert n. induction a as [|i a IH]; intros n W H; cbn in H; [now injection H as <-|].
  destruct (nth_error (kids n) i) as [m|] eqn:E; [|discriminate]. exact (IH m (wf_kid n i m W E) H).
Qed.
Lemma node_at_app n a b : node_at n (a ++ b) = match node_at n a with Some m => node_at m b | None => None end.
Proof. revert n. induction a as [|i a IH]; intros n; cbn; [reflexivity|]. destruct (nth_error (kids n) i); [apply IH|reflexivity]. Qed.

(** *** reading *)
Lemma getp_follows n p c : getp n p = Ok c -> exists a, follows n p a /\ node_at n a = Some c.
Proof.
  revert n. induction p as [|k p IH]; intros n H; cbn in H; [injection H as ->; exists []; split; [constructor|reflexivity]|].
  destruct (get1 n k) as [m|] eqn:E; [|discriminate]. cbn in H. destruct (get1_at n k m E) as (a & L & K & _). destruct (IH m H) as (b & F & Kb).
  exists (a ++ b). split; [econstructor; eauto|]. rewrite node_at_app, K. exact Kb.
Qed.
Lemma follows_getp n p a c : wf n -> follows n p a -> node_at n a = Some c -> getp n p = Ok c.
Proof.
  intros W F. revert c W. induction F as [n|n k p a m b L K F IH]; intros c W H; cbn; [cbn in H; now injection H as ->|].
  rewrite (leads_get1 n k a m W L K). cbn. rewrite node_at_app, K in H. apply IH; [exact (wf_at n a m W K)|exact H].
Qed.

(** *** writing *)
Lemma change_get n k c y : get1 n k = Ok c -> get1 (change n k y) k = Ok y.
Proof.
  assert (A : forall n, item n k = Ok c -> item (change_item n k y) k = Ok y /\ fits (change_item n k y) k = fits n k).
  { intros m H. destruct m as [m r|i o m|d|l|l]; cbn [item change_item] in *; try discriminate.
    - rewrite klook_kset. split; [reflexivity|]. destruct k; reflexivity.
    - destruct k as [s|z| |j]; try discriminate. destruct (py_set_get l z c y H) as (p & q & -> & P & S). rewrite S. cbn. split; [|reflexivity].
      apply py_get_points. exists (length p). split; [exact (points_replace z p q c y P)|apply nth_mid].
    - destruct k as [s|z| |j]; try discriminate. destruct (py_set_get l z c y H) as (p & q & -> & P & S). rewrite S. cbn. split; [|reflexivity].
      apply py_get_points. exists (length p). split; [exact (points_replace z p q c y P)|apply nth_mid]. }
  destruct n as [m r|i o m|d|l|l]; cbn [get1 change]; try (intros H; discriminate H).
  - destruct k as [s|z| |j]; try (intros _; reflexivity);
      (destruct (fits m _) as [u|] eqn:F; [|discriminate]; cbn [rbind]; intros H; destruct (A m H) as [A1 A2]; cbn [get1]; rewrite A2, F; exact A1).
  - intros H. destruct (A (DictN d) H) as [A1 _]. cbn [change_item] in *. exact A1.
  - intros H. destruct (A (ListN l) H) as [A1 _]. cbn [change_item] in *. destruct k; try exact A1. destruct (py_set l z y); exact A1.
  - intros H. destruct (A (TupN l) H) as [A1 _]. cbn [change_item] in *. destruct k; try exact A1. destruct (py_set l z y); exact A1.
Qed.
Definition stored (n : node) (k : key) (x : node) : node := match n, k with Mdl _ _ _, KN => wrapped x | _, _ => x end.
Lemma set1_get n k x n' : set1 n k x = (n', Ok tt) -> get1 n' k = Ok (stored n k x).
Proof.
  assert (A : forall m m', set_item m k x = Ok m' -> item m' k = Ok x /\ fits m' k = fits m k /\ ~ is_mdl m').
  { intros m m' H. destruct m as [m r|i o m|d|l|l]; cbn [set_item] in H; try discriminate.
    - injection H as <-. cbn. rewrite klook_kset. destruct k; auto.
    - destruct k as [s|z| |j]; try discriminate. destruct (py_set l z x) as [l'|] eqn:E; [|discriminate]. injection H as <-. cbn.
      destruct (py_set_back l l' z x E) as [G _]. auto. }
  destruct n as [m r|i o m|d|l|l]; cbn [set1]; try (cbn [set_item]; discriminate).
  - destruct k as [s|z| |j]; try (intros H; injection H as <-; reflexivity);
      (destruct (fits m _) as [u|] eqn:F; [|discriminate]; cbn [rbind]; destruct (set_item m _ x) as [c|] eqn:E; [|discriminate]; intros H; injection H as <-;
       destruct (A m c E) as (A1 & A2 & _); cbn [get1 stored]; rewrite A2, F; exact A1).
  - destruct (set_item (DictN d) k x) as [c|] eqn:E; [|discriminate]. intros H. injection H as <-. destruct (A _ c E) as (A1 & _ & A3).
    destruct c; try exact A1. destruct (A3 I).
  - destruct (set_item (ListN l) k x) as [c|] eqn:E; [|discriminate]. intros H. injection H as <-. destruct (A _ c E) as (A1 & _ & A3).
    destruct c; try exact A1. destruct (A3 I).
Qed.
Lemma setp_cons n k k' p x : setp n (k :: k' :: p) x = match get1 n k with Ok n' => let '(n'', r) := setp n' (k' :: p) x in (change n k n'', r) | Err e => (n, Err e) end.
Proof. reflexivity. Qed.
Lemma setp_get n p k x n' : setp n (p ++ [k]) x = (n', Ok tt) -> exists q, getp n p = Ok q /\ getp n' (p ++ [k]) = Ok (stored q k x).
Proof.
  revert n n'. induction p as [|j p IH]; intros n n' H; cbn [app] in *.
  - cbn [setp] in H. exists n. split; [reflexivity|]. cbn [getp]. rewrite (set1_get n k x n' H). reflexivity.
  - assert (E : exists k' p', p ++ [k] = k' :: p') by (destruct p; cbn; eauto). destruct E as (k' & p' & E).
    rewrite E, setp_cons in H. rewrite <- E in H. destruct (get1 n j) as [m|] eqn:G; [|discriminate].
    destruct (setp m (p ++ [k]) x) as [m' r] eqn:S. injection H as <- ->. destruct (IH m m' S) as (q & Q1 & Q2).
    exists q. cbn [getp]. rewrite G, (change_get n j m m' G). cbn [rbind]. auto.
Qed.

(** a new entry of a dictionary *)
Definition new_entry (a : list nat) (k : key) (x : node) (n n' : node) : Prop :=
  exists d, node_at n a = Some (DictN d) /\ ~ In k (map fst d) /\ replaced_at a (DictN (d ++ [(k, x)])) n n'.
Lemma set_item_at n k x n' : set_item n k x = Ok n' ->
  (exists i c, names n k i /\ nth_error (kids n) i = Some c /\ replaced_at [i] x n n' /\ item n k = Ok c) \/
  (exists d, n = DictN d /\ ~ In k (map fst d) /\ n' = DictN (d ++ [(k, x)])).
Proof.
  destruct n as [m r|i o m|d|l|l]; cbn [set_item]; try discriminate.
  - intros H. injection H as <-. destruct (klook d k) as [c|] eqn:E.
    + left. assert (I : item (DictN d) k = Ok c) by (cbn; now rewrite E). destruct (item_at _ k c I) as (i & N & K & R). exists i, c.
      repeat split; auto. exact (R [] x x (r_here x c)).
    + right. destruct (klook_none d k E) as [N S]. exists d. rewrite S. auto.
  - destruct k as [s|z| |j]; try discriminate. destruct (py_set l z x) as [l'|] eqn:E; [|discriminate]. intros H. injection H as <-. left.
    destruct (py_set_back l l' z x E) as [_ (c & C)]. destruct (item_at (ListN l) (KI z) c C) as (i & N & K & R). exists i, c. repeat split; auto.
    specialize (R [] x x (r_here x c)). cbn [change_item] in R. now rewrite E in R.
Qed.
Lemma set1_at n k x n' : set1 n k x = (n', Ok tt) ->
  (exists a, leads n k a /\ node_at n a <> None /\ replaced_at a (stored n k x) n n') \/
  (exists a, (a = [] \/ is_mdl n /\ a = [0]) /\ new_entry a k x n n').
Proof.
  assert (A : forall n n', ~ is_mdl n -> set_item n k x = Ok n' -> (exists a, leads n k a /\ node_at n a <> None /\ replaced_at a (stored n k x) n n') \/
    (exists a, (a = [] \/ is_mdl n /\ a = [0]) /\ new_entry a k x n n')).
  { intros m m' NM H. destruct (set_item_at m k x m' H) as [(i & c & N & K & R & _)|(d & -> & ND & ->)].
    - left. exists [i]. split; [now constructor|]. split; [cbn; now rewrite K|]. destruct m; try exact R. destruct (NM I).
    - right. exists []. split; [auto|]. exists d. split; [reflexivity|]. split; [exact ND|constructor]. }
  destruct n as [m r|i o m|d|l|l]; cbn [set1]; try (cbn [set_item]; discriminate).
  - destruct k as [s|z| |j].
    3: { intros H. injection H as <-. left. exists [0]. split; [apply l_all|]. split; [discriminate|]. constructor. constructor. }
    + destruct (fits m _) as [u|] eqn:F; [|discriminate]. cbn [rbind]. destruct (set_item m _ x) as [c|] eqn:E; [|discriminate]. intros H. injection H as <-.
      destruct (set_item_at m _ x c E) as [(w & y & N & K & R & _)|(d & -> & ND & ->)].
      * left. exists [0; w]. split; [destruct m; try discriminate F; now constructor|]. split; [cbn; now rewrite K|]. now constructor.
      * right. exists [0]. split; [right; split; [exact I|reflexivity]|]. exists d. split; [reflexivity|]. split; [exact ND|]. constructor. constructor.
    + destruct (fits m _) as [u|] eqn:F; [|discriminate]. cbn [rbind]. destruct (set_item m _ x) as [c|] eqn:E; [|discriminate]. intros H. injection H as <-.
      destruct (set_item_at m _ x c E) as [(w & y & N & K & R & _)|(d & -> & ND & ->)].
      * left. exists [0; w]. split; [destruct m; try discriminate F; now constructor|]. split; [cbn; now rewrite K|]. now constructor.
      * right. exists [0]. split; [right; split; [exact I|reflexivity]|]. exists d. split; [reflexivity|]. split; [exact ND|]. constructor. constructor.
    + destruct m; discriminate.
  - destruct (set_item (DictN d) k x) as [c|] eqn:E; [|discriminate]. intros H. injection H as <-. apply (A (DictN d) c); [intros []|exact E].
  - destruct (set_item (ListN l) k x) as [c|] eqn:E; [|discriminate]. intros H. injection H as <-. apply (A (ListN l) c); [intros []|exact E].
Qed.

Lemma same_refl : forall n, same_modules n n.
Proof.
  fix F 1. intros [m r|i o c|d|l|l].
  - constructor.
  - constructor. apply F.
  - constructor. induction d as [|[k y] d IH]; constructor; [split; [reflexivity|apply F]|exact IH].
  - constructor. induction l as [|y l IH]; constructor; [apply F|exact IH].
  - constructor. induction l as [|y l IH]; constructor; [apply F|exact IH].
Qed.
Lemma replaced_same a x y n n' : replaced_at a y n n' -> node_at n a = Some x -> same_modules x y -> same_modules n n'.
Proof.
  intros R. induction R as [y n|a y i o i' o' c c' R IH|a y p q k c c' R IH|a y p q c c' R IH|a y p q c c' R IH]; intros K S.
  - cbn in K. now injection K as ->.
  - constructor. cbn in K. auto.
  - cbn in K. rewrite map_app in K. cbn in K. rewrite <- (map_length snd p), nth_mid in K. constructor. apply Forall2_app.
    + clear. induction p as [|[j z] p IH]; constructor; [split; [reflexivity|apply same_refl]|exact IH].
    + constructor; [split; [reflexivity|cbn; auto]|]. clear. induction q as [|[j z] q IH]; constructor; [split; [reflexivity|apply same_refl]|exact IH].
  - cbn in K. rewrite nth_mid in K. constructor. apply Forall2_app.
    + clear. induction p as [|z p IH]; constructor; [apply same_refl|exact IH].
    + constructor; [auto|]. clear. induction q as [|z q IH]; constructor; [apply same_refl|exact IH].
  - cbn in K. rewrite nth_mid in K. constructor. apply Forall2_app.
    + clear. induction p as [|z p IH]; constructor; [apply same_refl|exact IH].
    + constructor; [auto|]. clear. induction q as [|z q IH]; constructor; [apply same_refl|exact IH].
Qed.
Lemma set1_fails n k x n' e : set1 n k x = (n', Err e) -> same_modules n n'.
Proof.
  destruct n as [m r|i o m|d|l|l]; cbn [set1].
  - cbn. intros H. injection H as <- _. constructor.
  - destruct k as [s|z| |j]; try discriminate; (match goal with |- context [match ?q with Ok _ => _ | Err _ => _ end] => destruct q end; [discriminate|]; intros H; injection H as <- _; constructor; apply same_refl).
  - cbn. discriminate.
  - destruct (set_item (ListN l) k x); [discriminate|]. intros H. injection H as <- _. apply same_refl.
  - cbn. intros H. injection H as <- _. apply same_refl.
Qed.
Lemma setp_fails n p x n' e : setp n p x = (n', Err e) -> same_modules n n'.
Proof.
  revert n n'. induction p as [|k [|k' p] IH]; intros n n' H.
  - cbn in H. injection H as <- _. apply same_refl.
  - exact (set1_fails n k x n' e H).
  - rewrite setp_cons in H. destruct (get1 n k) as [m|] eqn:G; [|injection H as <- _; apply same_refl].
    destruct (setp m (k' :: p) x) as [m' r] eqn:S. injection H as <- ->. destruct (get1_at n k m G) as (a & _ & K & R).
    apply (replaced_same a m m' n); [rewrite <- (app_nil_r a); apply R; constructor|exact K|exact (IH m m' S)].
Qed.
Lemma follows_app n p a m k b : follows n p a -> node_at n a = Some m -> leads m k b -> node_at m b <> None -> follows n (p ++ [k]) (a ++ b).
Proof.
  intros F. revert m. induction F as [n|n j p a q b' L K F IH]; intros m H Lm Nb; cbn [app].
  - cbn in H. injection H as <-. destruct (node_at n b) as [y|] eqn:E; [|congruence]. rewrite <- (app_nil_r b). econstructor; [exact Lm|exact E|constructor].
  - rewrite <- app_assoc. rewrite node_at_app, K in H. econstructor; [exact L|exact K|]. exact (IH m H Lm Nb).
Qed.
(** what a successful assignment did *)
Lemma setp_at n p k x n' : setp n (p ++ [k]) x = (n', Ok tt) -> exists q a, getp n p = Ok q /\ follows n p a /\ node_at n a = Some q /\
  ((exists b, leads q k b /\ node_at q b <> None /\ replaced_at (a ++ b) (stored q k x) n n') \/
   (exists b, (b = [] \/ is_mdl q /\ b = [0]) /\ new_entry (a ++ b) k x n n')).
Proof.
  revert n n'. induction p as [|j p IH]; intros n n' H; cbn [app] in *.
  - exists n, []. split; [reflexivity|]. split; [constructor|]. split; [reflexivity|]. exact (set1_at n k x n' H).
  - assert (E : exists k' p', p ++ [k] = k' :: p') by (destruct p; cbn; eauto). destruct E as (k' & p' & E).
    rewrite E, setp_cons in H. rewrite <- E in H. destruct (get1 n j) as [m|] eqn:G; [|discriminate].
    destruct (setp m (p ++ [k]) x) as [m' r] eqn:S. injection H as <- ->. destruct (IH m m' S) as (q & a & Q & F & K & C).
    destruct (get1_at n j m G) as (a0 & L0 & K0 & R0). exists q, (a0 ++ a). cbn [getp]. rewrite G. split; [exact Q|]. split; [econstructor; eauto|].
    split; [rewrite node_at_app, K0; exact K|]. destruct C as [(b & Lb & Nb & R)|(b & Hb & d & D & ND & R)].
    + left. exists b. split; [exact Lb|]. split; [exact Nb|]. rewrite <- app_assoc. exact (R0 _ _ _ R).
    + right. exists b. split; [exact Hb|]. exists d. rewrite <- app_assoc. split; [rewrite node_at_app, K0; exact D|]. split; [exact ND|]. exact (R0 _ _ _ R).
Qed.

(** other places *)
Lemma nth_other {A} (p q : list A) x y i : i <> length p -> nth_error (p ++ x :: q) i = nth_error (p ++ y :: q) i.
Proof.
  intros H. destruct (Nat.lt_ge_cases i (length p)).
  - now rewrite !nth_error_app1 by assumption.
  - rewrite !nth_error_app2 by assumption. destruct (i - length p) as [|j] eqn:E; [lia|reflexivity].
Qed.
Lemma replaced_apart a x n n' b : replaced_at a x n n' -> apart a b -> node_at n' b = node_at n b.
Proof.
  intros R. revert b. induction R as [x n|a x i o i' o' c c' R IH|a x p q k c c' R IH|a x p q c c' R IH|a x p q c c' R IH]; intros b [A B].
  - exfalso. apply (A b). reflexivity.
  - destruct b as [|j b]; [exfalso; apply (B (0 :: a)); reflexivity|]. destruct j as [|j].
    + cbn. apply IH. split; intros t ->; [apply (A t); reflexivity|apply (B t); reflexivity].
    + cbn. now destruct j.
  - destruct b as [|j b]; [exfalso; eapply B; reflexivity|]. cbn. rewrite !map_app. cbn. destruct (Nat.eq_dec j (length p)) as [ -> |NE].
    + rewrite <- (map_length snd p), !nth_mid. apply IH. split; intros t ->; [apply (A t); reflexivity|apply (B t); reflexivity].
    + rewrite (nth_other (map snd p) (map snd q) c' c j); [reflexivity|]. now rewrite map_length.
  - destruct b as [|j b]; [exfalso; eapply B; reflexivity|]. cbn. destruct (Nat.eq_dec j (length p)) as [ -> |NE].
    + rewrite !nth_mid. apply IH. split; intros t ->; [apply (A t); reflexivity|apply (B t); reflexivity].
    + now rewrite (nth_other p q c' c j).
  - destruct b as [|j b]; [exfalso; eapply B; reflexivity|]. cbn. destruct (Nat.eq_dec j (length p)) as [ -> |NE].
    + rewrite !nth_mid. apply IH. split; intros t ->; [apply (A t); reflexivity|apply (B t); reflexivity].
    + now rewrite (nth_other p q c' c j).
Qed.

(** *** readiness *)
Lemma leaves_self n m : In m (leaves n) -> leaves m = [m].
Proof.
  revert n. fix F 1. intros [v r|i o c|d|l|l]; cbn.
  - intros [E|[]]. clear F. now subst.
  - intros [E|[]]. clear F. now subst.
  - induction d as [|[k y] d IH]; [intros []|]. cbn. intros H. apply in_app_or in H as [H|H]; [exact (F y H)|exact (IH H)].
  - induction l as [|y l IH]; [intros []|]. cbn. intros H. apply in_app_or in H as [H|H]; [exact (F y H)|exact (IH H)].
  - induction l as [|y l IH]; [intros []|]. cbn. intros H. apply in_app_or in H as [H|H]; [exact (F y H)|exact (IH H)].
Qed.
Lemma flat_forall {A} (f : A -> list node) l : forallb is_ready (flat_map f l) = forallb (fun x => forallb is_ready (f x)) l.
Proof. induction l as [|x l IH]; cbn; [reflexivity|]. now rewrite forallb_app, IH. Qed.
Lemma ready_leaves : forall n, is_ready n = forallb is_ready (leaves n).
Proof.
  fix F 1. intros [v r|i o c|d|l|l].
  - cbn. now rewrite andb_true_r.
  - cbn [leaves forallb]. now rewrite andb_true_r.
  - cbn [leaves is_ready]. rewrite flat_forall. induction d as [|[k y] d IH]; [reflexivity|]. cbn. now rewrite <- F, <- IH.
  - cbn [leaves is_ready]. rewrite flat_forall. induction l as [|y l IH]; [reflexivity|]. cbn. now rewrite <- F, <- IH.
  - cbn [leaves is_ready]. rewrite flat_forall. induction l as [|y l IH]; [reflexivity|]. cbn. now rewrite <- F, <- IH.
Qed.
Definition all_usable (n : node) : Prop := forall m, In m (leaves n) -> usable m.
Lemma ready_usable : forall n, is_ready n = true -> all_usable n.
Proof.
  fix F 1. intros [v r|i o c|d|l|l] H m I; cbn in *.
  - destruct I as [ <- |[]]. subst. constructor.
  - destruct I as [ <- |[]]. apply andb_prop in H as [H ->]. apply andb_prop in H as [H ->]. apply andb_prop in H as [H1 H2].
    constructor; [intros E; rewrite E in H1; discriminate H1|]. exact (F c H2).
  - revert H I. induction d as [|[k y] d IH]; [intros _ []|]. cbn. intros H I. apply andb_prop in H as [H1 H2]. apply in_app_or in I as [I|I]; [exact (F y H1 m I)|exact (IH H2 I)].
  - revert H I. induction l as [|y l IH]; [intros _ []|]. cbn. intros H I. apply andb_prop in H as [H1 H2]. apply in_app_or in I as [I|I]; [exact (F y H1 m I)|exact (IH H2 I)].
  - revert H I. induction l as [|y l IH]; [intros _ []|]. cbn. intros H I. apply andb_prop in H as [H1 H2]. apply in_app_or in I as [I|I]; [exact (F y H1 m I)|exact (IH H2 I)].
Qed.
Lemma usable_ready : forall m, usable m -> is_ready m = true.
Proof.
  fix F 2. intros m [v|c N U]; [reflexivity|]. cbn [is_ready]. replace (Nat.ltb 0 (length (leaves c))) with true by (symmetry; apply Nat.ltb_lt; destruct (leaves c); [congruence|cbn; lia]).
  rewrite ready_leaves, andb_true_r, andb_true_r. cbn [andb]. apply forallb_forall. intros x I. exact (F x (U x I)).
Qed.
Lemma leaf_ready n m : In m (leaves n) -> (is_ready m = true <-> usable m).
Proof.
  intros I. split; [|apply usable_ready]. intros R. apply (ready_usable m R). rewrite (leaves_self n m I). left. reflexivity.
Qed.
