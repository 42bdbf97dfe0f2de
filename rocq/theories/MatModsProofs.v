From Coq Require Import ZArith Lia Permutation.
From Verif Require Import Base BaseLemmas TreeUtil NonSeqSpec NonSeqProofs MutableProofs Serial SerialProofs Modules ModulesProofs Composite CompositeProofs CompositeMain MatMods MatModsSpec.
Local Open Scope string_scope.
Local Open Scope list_scope.
Local Open Scope nat_scope.

Lemma Ok_inj' {X} (a b : X) : Ok a = Ok b -> a = b. Proof. congruence. Qed.

(** * Maps on the leaves *)
Lemma jm_const_on {X Y} (f : X -> result Y) (c : Y) (t : tree X) :
  (forall x, In x (leaves t) -> f x = Ok c) -> jmapM f t = Ok (cmap c t).
Proof.
  induction t as [x| |d IH|l IH|l IH] using tree_ind2; intros H.
  - cbn. rewrite (H x (or_introl eq_refl)). reflexivity.
  - reflexivity.
  - rewrite jmapM_dct, (jm_dict_ok _ d (map (fun kv => (fst kv, cmap c (snd kv))) d)); [reflexivity|].
    cbn [leaves] in H.
    assert (K : forall kv, In kv d -> forall x, In x (leaves (snd kv)) -> f x = Ok c).
    { intros kv Hk x Hx. apply H. apply in_concat. exists (leaves (snd kv)). split; [|exact Hx].
      apply in_map_iff. exists (fst kv, leaves (snd kv)). split; [reflexivity|].
      apply (Permutation_in _ (Permutation_sym (sort_kvs_perm _))). apply in_map_iff. exists kv. auto. }
    clear H. induction IH as [|kv d Hd _ IHd]; cbn; constructor.
    + split; [reflexivity|]. apply Hd. apply K. left. reflexivity.
    + apply IHd. intros kv' Hk. apply K. right. exact Hk.
  - rewrite jmapM_lst, (jm_list_ok _ l (map (cmap c) l)); [reflexivity|].
    cbn [leaves] in H.
    assert (K : forall u, In u l -> forall x, In x (leaves u) -> f x = Ok c).
    { intros u Hk x Hx. apply H. apply in_concat. exists (leaves u). split; [apply in_map, Hk|exact Hx]. }
    clear H. induction IH as [|u l Hd _ IHl]; cbn; constructor.
    + apply Hd. apply K. left. reflexivity.
    + apply IHl. intros u' Hk. apply K. right. exact Hk.
  - rewrite jmapM_tup, (jm_list_ok _ l (map (cmap c) l)); [reflexivity|].
    cbn [leaves] in H.
    assert (K : forall u, In u l -> forall x, In x (leaves u) -> f x = Ok c).
    { intros u Hk x Hx. apply H. apply in_concat. exists (leaves u). split; [apply in_map, Hk|exact Hx]. }
    clear H. induction IH as [|u l Hd _ IHl]; cbn; constructor.
    + apply Hd. apply K. left. reflexivity.
    + apply IHl. intros u' Hk. apply K. right. exact Hk.
Qed.

Lemma leaves_tmap {X Y} (f : X -> Y) (t : tree X) : leaves (tmap f t) = map f (leaves t).
Proof.
  induction t as [x| |d IH|l IH|l IH] using tree_ind2; try reflexivity; cbn [tmap leaves].
  - rewrite map_map. cbn [fst snd].
    replace (map (fun x => (fst x, leaves (tmap f (snd x)))) d)
      with (map (fun kv : string * list X => (fst kv, map f (snd kv))) (map (fun kv => (fst kv, leaves (snd kv))) d)).
    + rewrite sort_kvs_map by reflexivity. rewrite map_map. cbn [snd]. rewrite concat_map, map_map. reflexivity.
    + rewrite map_map. cbn [fst snd]. induction IH as [|kv d Hd _ IHd]; cbn; [reflexivity|]. rewrite Hd, IHd. reflexivity.
  - rewrite map_map, concat_map, map_map. f_equal. induction IH as [|kv d Hd _ IHd]; cbn; [reflexivity|]. rewrite Hd, IHd. reflexivity.
  - rewrite map_map, concat_map, map_map. f_equal. induction IH as [|kv d Hd _ IHd]; cbn; [reflexivity|]. rewrite Hd, IHd. reflexivity.
Qed.
Lemma cmap_tmap {X Y Z} (f : X -> Y) (c : Z) (t : tree X) : cmap c (tmap f t) = cmap c t.
Proof.
  induction t as [x| |d IH|l IH|l IH] using tree_ind2; try reflexivity; cbn [tmap cmap]; f_equal; rewrite map_map; cbn [fst snd].
  - f_equal. induction IH as [|kv d Hd _ IHd]; cbn; [reflexivity|]. rewrite Hd, IHd. reflexivity.
  - induction IH as [|kv d Hd _ IHd]; cbn; [reflexivity|]. rewrite Hd, IHd. reflexivity.
  - induction IH as [|kv d Hd _ IHd]; cbn; [reflexivity|]. rewrite Hd, IHd. reflexivity.
Qed.
Lemma single_in t s : single_leaf t = Some s -> leaves t = [s].
Proof. unfold single_leaf. destruct (leaves t) as [|x [|y l]]; congruence. Qed.

(** A map that is fine on the only leaf. *)
Lemma run_leaf (f : list nat -> result (list nat)) t s b u :
  single_leaf t = Some s -> f (b :: s) = Ok u -> jmapM f (tmap (cons b) t) = Ok (cmap u t).
Proof.
  intros Hs Hf. rewrite (jm_const_on f u), cmap_tmap; [reflexivity|].
  intros x Hx. rewrite leaves_tmap, (single_in _ _ Hs) in Hx. destruct Hx as [<-|[]]. exact Hf.
Qed.

Section Life.
Context (herm : arr -> bool).
Context (fits : mkind -> obj -> option (tree (list nat)) -> pv -> Prop).

(** * AffineHermitianMatrix *)
Definition inv_herm (o : obj) (c : option (tree (list nat))) : Prop :=
  exists n sm bt Ms mag t, o = ahm_obj n sm bt Ms mag t /\
    (forall m, Ms = Some m -> exists p k, n = Some k /\ a_shape m = [p; k; k] /\ herm m = true) /\
    (forall w, c = Some w -> exists d k m, single_leaf w = Some [d] /\ n = Some k /\ Ms = Some m /\
       a_shape m = [if bt then S d else d; k; k]).
Lemma ahm_init_inv n sm Ms mag bt o : ahm_init herm n sm Ms mag bt = Ok o ->
  exists n' , o = ahm_obj n' sm bt Ms mag true /\ (forall m, Ms = Some m -> exists p k, n' = Some k /\ a_shape m = [p; k; k] /\ herm m = true).
Proof.
  intros Hi. unfold ahm_init in Hi.
  assert (Hi' : match Ms with
      | None => Ok (ahm_obj n sm bt None mag true)
      | Some m =>
          match a_shape m with
          | a :: b :: _ =>
              let n := match n with Some n => n | None => b end in
              if negb (str_list_eqb (a_shape m) [a; n; n]) then Err ValueError
              else if negb (herm m) then Err ValueError
              else Ok (ahm_obj (Some n) sm bt Ms mag true)
          | _ => Err IndexError
          end
      end = Ok o) by (destruct n as [[|n]|]; [discriminate | exact Hi | exact Hi]).
  clear Hi. destruct Ms as [m|].
  - destruct (a_shape m) as [|a [|b r]] eqn:Es; try discriminate. cbv zeta in Hi'.
    set (k := match n with Some n => n | None => b end) in *.
    destruct (str_list_eqb (a :: b :: r) [a; k; k]) eqn:E1; [|discriminate].
    destruct (herm m) eqn:E2; [|discriminate]. injection Hi' as <-. apply sle_eq in E1.
    exists (Some k). split; [reflexivity|]. intros m' [= <-]. exists a, k. rewrite Es. auto.
  - injection Hi' as <-. exists n. split; [reflexivity|]. discriminate.
Qed.
Lemma reached_herm o c : reached herm fits KHerm o c -> inv_herm o c.
Proof.
  induction 1 as [o H|o c p o' _ IH _ Hp|o c o1 h o' _ IH H1 Hh Hs|o c b _ IH|o c draw t o' _ IH Hd Hc].
  - inversion H as [n s Ms g b o0 Hi| | | |]; subst. apply ahm_init_inv in Hi as (n' & -> & HM).
    exists n', s, b, Ms, g, true. split; [reflexivity|]. split; [exact HM|]. discriminate.
  - destruct IH as (n & sm & bt & Ms & mag & t & -> & HM & HC).
    cbn [mod_cls set_par ahm_cls] in Hp.
    unfold ahm_set_par in Hp. destruct p as [| | | | | |a| | | |]; try discriminate. cbn -[nat_of_v opt_nat] in Hp.
    destruct (a_shape a) as [|d r] eqn:Es; [discriminate|].
    destruct (nat_of_v (opt_nat n)) as [k|] eqn:E; [|discriminate]. apply ModulesProofs.nat_of_opt in E. subst n.
    cbv zeta in Hp. set (d' := match match Ms with Some _ => _ | None => _ end with VArr c => _ | _ => _ end) in Hp.
    destruct (str_list_eqb (d :: r) [d'; k; k]) eqn:E1; [|discriminate].
    destruct (herm a) eqn:E2; [|discriminate]. cbn in Hp. injection Hp as <-. apply sle_eq in E1.
    exists (Some k), sm, bt, (Some a), mag, t. split; [reflexivity|]. split.
    + intros m [= <-]. exists d', k. rewrite Es. auto.
    + intros w Hw. destruct (HC w Hw) as (d0 & k0 & m & Hl & Hn & HMs & Hsh). injection Hn as <-.
      exists d0, k, a. repeat split; auto. rewrite Es, E1. subst Ms. unfold d'. cbn. rewrite Hsh. reflexivity.
  - destruct IH as (n & sm & bt & Ms & mag & t & -> & HM & HC).
    inversion H1 as [n1 s1 Ms1 g1 b1 o0 Hi| | | |]; subst. apply ahm_init_inv in Hi as (n' & -> & _).
    cbn -[opt_nat] in Hh. injection Hh as <-. cbn -[opt_nat] in Hs. destruct Ms as [m|]; [discriminate|].
    cbn -[opt_nat] in Hs. unfold set_all in Hs. cbn -[opt_nat] in Hs. injection Hs as <-.
    exists n', s1, b1, None, g1, t. split; [reflexivity|]. split; [discriminate|].
    intros w Hw. destruct (HC w Hw) as (d0 & k0 & m & _ & _ & E & _). discriminate.
  - destruct IH as (n & sm & bt & Ms & mag & t & -> & HM & HC). exists n, sm, bt, Ms, mag, b. auto.
  - destruct IH as (n & sm & bt & Ms & mag & tr & -> & HM & HC). cbn [compile] in Hc.
    destruct (single_leaf t) as [[|d [|? ?]]|] eqn:El; try discriminate.
    unfold ahm_compile in Hc. cbn -[nat_of_v opt_nat] in Hc. destruct Ms as [m|].
    + destruct (Nat.eqb_spec (hd 0 (a_shape m)) (if bt then S d else d)) as [E|]; [|discriminate]. injection Hc as <-.
      exists n, sm, bt, (Some m), mag, tr. split; [reflexivity|]. split; [exact HM|].
      intros w [= <-]. destruct (HM m eq_refl) as (p & k & -> & Hsh & _). exists d, k, m. repeat split; auto.
      rewrite Hsh in *. cbn in E. subst p. reflexivity.
    + destruct (nat_of_v (opt_nat n)) as [k|] eqn:E; [|discriminate]. apply ModulesProofs.nat_of_opt in E. subst n. injection Hc as <-.
      exists (Some k), sm, bt, (Some (draw [if bt then S d else d; k; k])), mag, tr.
      split; [reflexivity|]. destruct (Hd [if bt then S d else d; k; k]) as [D1 D2]. split.
      * intros m [= <-]. do 2 eexists. split; [reflexivity|]. split; [exact D1|exact D2].
      * intros w [= <-]. exists d, k. eexists. repeat split; eauto.
Qed.
Theorem herm_runs o t : reached herm fits KHerm o (Some t) -> runs KHerm o t.
Proof.
  intros H. apply reached_herm in H as (n & sm & bt & Ms & mag & tr & -> & HM & HC).
  destruct (HC t eq_refl) as (d & k & m & Hl & -> & -> & Hsh). exists (cmap [k; k] t). split.
  - unfold out_shape. rewrite Hl. cbn -[nat_of_v opt_nat]. unfold size_of. rewrite nat_of_opt'.
    rewrite jm_const, tmap_const. reflexivity.
  - intros b. cbn -[nat_of_v opt_nat jmapM]. rewrite Hsh. rewrite tmap_const. apply (run_leaf _ t [d]); [exact Hl|].
    cbn. rewrite !Nat.eqb_refl. reflexivity.
Qed.

(** * AffineTensor *)
Definition inv_tensor (o : obj) (c : option (tree (list nat))) : Prop :=
  exists sh bt Ms mag re t, o = at_obj sh bt Ms mag re t /\
    (forall m, Ms = Some m -> exists p l, sh = Some l /\ a_shape m = p :: l) /\
    (forall w, c = Some w -> exists d l m, single_leaf w = Some [d] /\ sh = Some l /\ Ms = Some m /\
       a_shape m = (if bt then S d else d) :: l).
Lemma at_init_inv sh Ms mag bt re o : at_init sh Ms mag bt re = Ok o ->
  exists sh', o = at_obj sh' bt Ms mag re true /\ (forall m, Ms = Some m -> exists p l, sh' = Some l /\ a_shape m = p :: l).
Proof.
  unfold at_init. destruct (match sh with Some l => existsb (Nat.eqb 0) l | None => false end); [discriminate|].
  destruct Ms as [m|].
  - destruct (a_shape m) as [|a r] eqn:Es; [discriminate|]. cbv zeta.
    set (l := match sh with Some (x :: l) => x :: l | _ => r end).
    destruct (str_list_eqb (a :: r) (a :: l)) eqn:E; [|discriminate]. intros H. injection H as <-.
    apply sle_eq in E. exists (Some l). split; [reflexivity|]. intros m' [= <-]. exists a, l. rewrite Es. auto.
  - intros H. injection H as <-. exists sh. split; [reflexivity|]. discriminate.
Qed.
Lemma reached_tensor o c : reached herm fits KTensor o c -> inv_tensor o c.
Proof.
  induction 1 as [o H|o c p o' _ IH _ Hp|o c o1 h o' _ IH H1 Hh Hs|o c b _ IH|o c draw t o' _ IH Hd Hc].
  - inversion H as [| |sh Ms g b re o0 Hi| |]; subst. apply at_init_inv in Hi as (sh' & -> & HM).
    exists sh', b, Ms, g, re, true. split; [reflexivity|]. split; [exact HM|]. discriminate.
  - destruct IH as (sh & bt & Ms & mag & re & t & -> & HM & HC).
    cbn [mod_cls set_par at_cls] in Hp.
    unfold at_set_par in Hp. destruct p as [| | | | | |a| | | |]; try discriminate. cbn -[int_list shape_v] in Hp.
    destruct (a_shape a) as [|d r] eqn:Es; [discriminate|].
    destruct sh as [l|]; [|discriminate]. cbn -[int_list] in Hp. rewrite int_list_shape in Hp.
    set (d' := match match Ms with Some _ => _ | None => _ end with VArr c => _ | _ => _ end) in Hp.
    destruct (str_list_eqb (d :: r) (d' :: l)) eqn:E1; [|discriminate]. cbn in Hp. injection Hp as <-. apply sle_eq in E1.
    exists (Some l), bt, (Some a), mag, re, t. split; [reflexivity|]. split.
    + intros m [= <-]. exists d', l. rewrite Es. auto.
    + intros w Hw. destruct (HC w Hw) as (d0 & k0 & m & Hl & Hn & HMs & Hsh). injection Hn as <-.
      exists d0, l, a. repeat split; auto. rewrite Es, E1. subst Ms. unfold d'. cbn. rewrite Hsh. reflexivity.
  - destruct IH as (sh & bt & Ms & mag & re & t & -> & HM & HC).
    inversion H1 as [| |sh1 Ms1 g1 b1 re1 o0 Hi| |]; subst. apply at_init_inv in Hi as (sh' & -> & _).
    cbn -[shape_v] in Hh. injection Hh as <-. cbn -[shape_v] in Hs. destruct Ms as [m|]; [discriminate|].
    cbn -[shape_v] in Hs. unfold set_all in Hs. cbn -[shape_v] in Hs. injection Hs as <-.
    exists sh', b1, None, g1, re1, t. split; [reflexivity|]. split; [discriminate|].
    intros w Hw. destruct (HC w Hw) as (d0 & k0 & m & _ & _ & E & _). discriminate.
  - destruct IH as (sh & bt & Ms & mag & re & t & -> & HM & HC). exists sh, bt, Ms, mag, re, b. auto.
  - destruct IH as (sh & bt & Ms & mag & re & tr & -> & HM & HC). cbn [compile] in Hc.
    destruct (single_leaf t) as [[|d [|? ?]]|] eqn:El; try discriminate.
    unfold at_compile in Hc. cbn -[int_list shape_v] in Hc. destruct Ms as [m|].
    + destruct (Nat.eqb_spec (hd 0 (a_shape m)) (if bt then S d else d)) as [E|]; [|discriminate]. injection Hc as <-.
      exists sh, bt, (Some m), mag, re, tr. split; [reflexivity|]. split; [exact HM|].
      intros w [= <-]. destruct (HM m eq_refl) as (p & l & -> & Hsh). exists d, l, m. repeat split; auto.
      rewrite Hsh in *. cbn in E. subst p. reflexivity.
    + destruct sh as [l|]; [|discriminate]. cbn -[int_list] in Hc. rewrite int_list_shape in Hc. injection Hc as <-.
      exists (Some l), bt, (Some (draw ((if bt then S d else d) :: l))), mag, re, tr.
      split; [reflexivity|]. destruct (Hd ((if bt then S d else d) :: l)) as [D1 _]. split.
      * intros m [= <-]. do 2 eexists. split; [reflexivity|]. exact D1.
      * intros w [= <-]. exists d, l. eexists. repeat split; eauto.
Qed.
Lemma sizes_back l : map size_of (map (fun n => VInt (Z.of_nat n)) l) = map Some l.
Proof. rewrite map_map. apply map_ext. intros n. exact (nat_of_opt' n). Qed.
Theorem tensor_runs o t : reached herm fits KTensor o (Some t) -> runs KTensor o t.
Proof.
  intros H. apply reached_tensor in H as (sh & bt & Ms & mag & re & tr & -> & HM & HC).
  destruct (HC t eq_refl) as (d & l & m & Hl & -> & -> & Hsh). exists (cmap l t). split.
  - unfold out_shape. rewrite Hl. cbn -[size_of jmapM]. rewrite sizes_back, jm_const, tmap_const. reflexivity.
  - intros b. cbn -[shape_v jmapM]. rewrite Hsh. rewrite tmap_const. apply (run_leaf _ t [d]); [exact Hl|].
    cbn. rewrite !Nat.eqb_refl. reflexivity.
Qed.

(** * LowRankAffineHermitianMatrix *)
Lemma lr_init_inv n r sm mag bt o : lr_init n r sm mag bt = Ok o -> o = lr_obj n r sm bt None mag true.
Proof.
  unfold lr_init. destruct n as [[|n]|]; [discriminate| |]; destruct r as [[|r]|]; try discriminate;
    try (intros H; injection H as <-; reflexivity).
  destruct (S n <? S r); [discriminate|]. intros H; injection H as <-; reflexivity.
Qed.
Definition inv_low (o : obj) (c : option (tree (list nat))) : Prop :=
  exists n r sm bt par mag t, o = lr_obj n r sm bt par mag t /\
    (forall ls us, par = Some (ls, us) -> exists p k q, n = Some k /\ r = Some q /\ a_shape us = [p; k; q] /\ a_shape ls = [p; q]) /\
    (forall w, c = Some w -> exists d k q ls us, single_leaf w = Some [d] /\ n = Some k /\ r = Some q /\ par = Some (ls, us) /\
       a_shape us = [if bt then S d else d; k; q]).
Lemma lr_hyper n r sm bt par mag t : get_hyper lr_cls (lr_obj n r sm bt par mag t) =
  Ok [("matrix_size", opt_nat n); ("smoothing", VFloat sm); ("init_magnitude", VFloat mag); ("bias_term", VBool bt)].
Proof. reflexivity. Qed.
Lemma reached_low o c : (forall o c p, fits KLow o c p -> consistent herm KLow o c p) -> reached herm fits KLow o c -> inv_low o c.
Proof.
  intros F.
  induction 1 as [o H|o c p o' _ IH Hf Hp|o c o1 h o' _ IH H1 Hh Hs|o c b _ IH|o c draw t o' _ IH Hd Hc].
  - inversion H as [|n r s g b o0 Hi| | |]; subst. apply lr_init_inv in Hi as ->.
    exists n, r, s, b, None, g, true. split; [reflexivity|]. split; discriminate.
  - destruct IH as (n & r & sm & bt & par & mag & t & -> & HM & HC). apply F in Hf.
    cbn [mod_cls set_par lr_cls] in Hp.
    unfold lr_set_par in Hp. destruct p as [| | | | | | | | |tp|]; try discriminate.
    destruct tp as [|l1 tp]; [discriminate|]. destruct l1 as [| | | | | |ls| | | |]; try discriminate.
    destruct tp as [|u1 tp]; [discriminate|]. destruct u1 as [| | | | | |us| | | |]; try discriminate.
    destruct tp as [|? ?]; [|discriminate]. cbn in Hf.
    cbn -[nat_of_v opt_nat] in Hp.
    destruct (a_shape us) as [|du ru] eqn:Eu; [discriminate|].
    destruct (a_shape ls) as [|dl rl] eqn:El; [discriminate|]. cbn in Hf. subst dl.
    destruct (nat_of_v (opt_nat n)) as [k|] eqn:E; [|discriminate]. apply ModulesProofs.nat_of_opt in E. subst n.
    destruct (nat_of_v (opt_nat r)) as [q|] eqn:E; [|discriminate]. apply ModulesProofs.nat_of_opt in E. subst r.
    set (d' := match match par with Some (_, u) => VArr u | None => _ end with VArr c => _ | _ => _ end) in Hp.
    destruct (str_list_eqb (du :: ru) [d'; k; q]) eqn:E1; [|discriminate].
    set (d'' := match match par with Some (l, _) => VArr l | None => _ end with VArr c => _ | _ => _ end) in Hp.
    destruct (str_list_eqb (du :: rl) [d''; q]) eqn:E2; [|discriminate].
    cbn in Hp. injection Hp as <-. apply sle_eq in E1, E2.
    exists (Some k), (Some q), sm, bt, (Some (ls, us)), mag, t. split; [reflexivity|]. split.
    + intros ls' us' [= <- <-]. exists d', k, q. rewrite Eu, El, E2. repeat split; auto. congruence.
    + intros w Hw. destruct (HC w Hw) as (d0 & k0 & q0 & l0 & u0 & Hl & Hn & Hr & HMs & Hsh). injection Hn as <-. injection Hr as <-.
      exists d0, k, q, ls, us. repeat split; auto. rewrite Eu, E1. subst par. unfold d'. cbn. rewrite Hsh. reflexivity.
  - destruct IH as (n & r & sm & bt & par & mag & t & -> & HM & HC).
    inversion H1 as [|n1 r1 s1 g1 b1 o0 Hi| | |]; subst. apply lr_init_inv in Hi as ->.
    cbn [mod_cls] in Hh. rewrite lr_hyper in Hh. apply Ok_inj' in Hh. subst h.
    cbn -[opt_nat] in Hs. destruct par as [[l u]|]; [discriminate|].
    cbn -[opt_nat] in Hs. unfold set_all in Hs. cbn -[opt_nat] in Hs. apply Ok_inj' in Hs. subst o'.
    exists n1, r, s1, b1, None, g1, t. split; [reflexivity|]. split; [discriminate|].
    intros w Hw. destruct (HC w Hw) as (d0 & k0 & q0 & l0 & u0 & _ & _ & _ & E & _). discriminate.
  - destruct IH as (n & r & sm & bt & par & mag & t & -> & HM & HC). exists n, r, sm, bt, par, mag, b. auto.
  - destruct IH as (n & r & sm & bt & par & mag & tr & -> & HM & HC). cbn [compile] in Hc.
    destruct (single_leaf t) as [[|d [|? ?]]|] eqn:El; try discriminate.
    unfold lr_compile in Hc. cbn -[nat_of_v opt_nat] in Hc. destruct par as [[l u]|].
    + destruct (Nat.eqb_spec (hd 0 (a_shape u)) (if bt then S d else d)) as [E|]; [|discriminate]. apply Ok_inj' in Hc. subst o'.
      exists n, r, sm, bt, (Some (l, u)), mag, tr. split; [reflexivity|]. split; [exact HM|].
      intros w [= <-]. destruct (HM l u eq_refl) as (p & k & q & -> & -> & Hsh & _). exists d, k, q, l, u. repeat split; auto.
      rewrite Hsh in *. cbn in E. subst p. reflexivity.
    + destruct (nat_of_v (opt_nat n)) as [k|] eqn:E; [|discriminate]. apply ModulesProofs.nat_of_opt in E. subst n.
      destruct (nat_of_v (opt_nat r)) as [q|] eqn:E; [|discriminate]. apply ModulesProofs.nat_of_opt in E. subst r.
      set (p := if bt then S d else d) in *. apply Ok_inj' in Hc. subst o'.
      exists (Some k), (Some q), sm, bt, (Some (draw [p; q], draw [p; k; q])), mag, tr.
      split; [reflexivity|]. destruct (Hd [p; k; q]) as [D1 _]. destruct (Hd [p; q]) as [D2 _]. split.
      * intros ls us [= <- <-]. exists p, k, q. repeat split; auto.
      * intros w [= <-]. exists d, k, q. do 2 eexists. repeat split; eauto.
Qed.
Theorem low_runs o t : (forall o c p, fits KLow o c p -> consistent herm KLow o c p) ->
  reached herm fits KLow o (Some t) -> runs KLow o t.
Proof.
  intros F H. apply reached_low in H as (n & r & sm & bt & par & mag & tr & -> & HM & HC); [|exact F].
  destruct (HC t eq_refl) as (d & k & q & ls & us & Hl & -> & -> & -> & Hsh). exists (cmap [k; k] t). split.
  - unfold out_shape. rewrite Hl. cbn -[nat_of_v opt_nat]. unfold size_of. rewrite nat_of_opt'.
    rewrite jm_const, tmap_const. reflexivity.
  - intros b. destruct (HM ls us eq_refl) as (p & k' & q' & E1 & E2 & Hu & Hls). injection E1 as <-. injection E2 as <-.
    rewrite Hsh in Hu. injection Hu as <-.
    cbn -[nat_of_v opt_nat jmapM]. rewrite Hsh, Hls. cbn [low_rank]. rewrite !Nat.eqb_refl. cbn [andb rbind].
    rewrite tmap_const. apply (run_leaf _ t [d]); [exact Hl|].
    cbn. rewrite !Nat.eqb_refl. reflexivity.
Qed.

(** * The sums *)
Definition is_sum (k : mkind) : Prop := k = KExp \/ k = KTrans.
Lemma evs_init_inv l q Ds mag ce o : evs_init herm l q Ds mag ce = Ok o ->
  exists l' q', o = evs_obj l' q' Ds mag ce true /\
    (forall m, Ds = Some m -> exists x y k, l' = Some y /\ q' = Some x /\ a_shape m = [x; y; k; k] /\ herm m = true).
Proof.
  unfold evs_init. destruct Ds as [m|].
  - destruct (a_shape m) as [|a [|b [|c [|d [|? ?]]]]] eqn:Es; try discriminate.
    destruct (Nat.eqb_spec c d) as [<-|]; [|discriminate]. destruct (herm m) eqn:Eh; [|discriminate]. cbn [negb].
    destruct (opt_is l b); [|discriminate]. destruct (opt_is q a); [|discriminate]. cbn [negb]. intros H. apply Ok_inj' in H. subst o.
    exists (Some b), (Some a). split; [reflexivity|]. intros m' [= <-]. exists a, b, c. auto.
  - intros H. apply Ok_inj' in H. subst o. exists l, q. split; [reflexivity|]. discriminate.
Qed.
Definition inv_sum (o : obj) (c : option (tree (list nat))) : Prop :=
  exists l q Ds mag ce t, o = evs_obj l q Ds mag ce t /\
    (forall m, Ds = Some m -> exists x y k, l = Some y /\ q = Some x /\ a_shape m = [x; y; k; k] /\ herm m = true) /\
    (forall w, c = Some w -> exists k j m x y, single_leaf w = Some [k; j] /\ Ds = Some m /\ a_shape m = [x; y; k; k]).
Lemma made_sum k o : is_sum k -> constructed herm k o -> exists l q Ds g ce, evs_init herm l q Ds g ce = Ok o.
Proof. intros [-> | ->] H; inversion H; subst; eauto 6. Qed.
Lemma sum_cls k : is_sum k -> mod_cls herm k = evs_cls herm.
Proof. intros [-> | ->]; reflexivity. Qed.
Lemma evs_hyper l q Ds mag ce t : get_hyper (evs_cls herm) (evs_obj l q Ds mag ce t) =
  Ok [("num_observables", opt_nat l); ("output_size", opt_nat q); ("init_magnitude", VFloat mag); ("centered", VBool ce)].
Proof. reflexivity. Qed.
Lemma reached_sum k o c : is_sum k -> (forall o c p, fits k o c p -> consistent herm k o c p) -> reached herm fits k o c -> inv_sum o c.
Proof.
  intros S F.
  induction 1 as [o H|o c p o' _ IH Hf Hp|o c o1 h o' _ IH H1 Hh Hs|o c b _ IH|o c draw t o' _ IH Hd Hc].
  - apply (made_sum k o S) in H as (l & q & Ds & g & ce & Hi). apply evs_init_inv in Hi as (l' & q' & -> & HM).
    exists l', q', Ds, g, ce, true. split; [reflexivity|]. split; [exact HM|]. discriminate.
  - destruct IH as (l & q & Ds & mag & ce & t & -> & HM & HC). apply F in Hf.
    rewrite (sum_cls k S) in Hp. cbn [set_par evs_cls] in Hp.
    unfold evs_set_par in Hp. destruct p as [| | | | | |a| | | |]; try discriminate. cbn -[nat_of_v opt_nat] in Hp.
    destruct (a_shape a) as [|x [|y [|n [|n' [|? ?]]]]] eqn:Es; try discriminate.
    destruct (nat_of_v (opt_nat q)) as [x'|] eqn:E; [|discriminate]. apply ModulesProofs.nat_of_opt in E. subst q.
    destruct (nat_of_v (opt_nat l)) as [y'|] eqn:E; [|discriminate]. apply ModulesProofs.nat_of_opt in E. subst l.
    destruct (str_list_eqb [x; y; n; n'] [x'; y'; n; n]) eqn:E1; [|discriminate].
    destruct (herm a) eqn:E2; [|discriminate]. cbn in Hp. apply Ok_inj' in Hp. subst o'. apply sle_eq in E1. injection E1 as -> -> ->.
    exists (Some y'), (Some x'), (Some a), mag, ce, t. split; [reflexivity|]. split.
    + intros m [= <-]. exists x', y', n. auto.
    + intros w Hw. destruct (HC w Hw) as (k0 & j & m & u & v & Hl & -> & Hsh). exists k0, j, a, u, v. repeat split; auto.
      assert (Q : exists m0, Ok (VArr m) = Ok (VArr m0) /\ a_shape m0 = a_shape a).
      { destruct S as [-> | ->]; cbn in Hf; apply Hf; rewrite Hw; discriminate. }
      destruct Q as (m0 & Q & Q2). apply Ok_inj' in Q. injection Q as <-. congruence.
  - destruct IH as (l & q & Ds & mag & ce & t & -> & HM & HC).
    apply (made_sum k o1 S) in H1 as (l1 & q1 & Ds1 & g1 & ce1 & Hi). apply evs_init_inv in Hi as (l' & q' & -> & _).
    rewrite (sum_cls k S) in Hh, Hs. rewrite evs_hyper in Hh. apply Ok_inj' in Hh. subst h.
    cbn -[opt_nat] in Hs. destruct Ds as [m|]; [discriminate|].
    cbn -[opt_nat] in Hs. unfold set_all in Hs. cbn -[opt_nat] in Hs. apply Ok_inj' in Hs. subst o'.
    exists l', q', None, g1, ce1, t. split; [reflexivity|]. split; [discriminate|].
    intros w Hw. destruct (HC w Hw) as (k0 & j & m & u & v & _ & E & _). discriminate.
  - destruct IH as (l & q & Ds & mag & ce & t & -> & HM & HC). exists l, q, Ds, mag, ce, b. auto.
  - destruct IH as (l & q & Ds & mag & ce & tr & -> & HM & HC).
    assert (Hc' : match single_leaf t with Some [n; _] => evs_compile draw (evs_obj l q Ds mag ce tr) n | _ => Err ValueError end = Ok o').
    { destruct S as [-> | ->]; cbn [compile] in Hc; destruct (single_leaf t) as [[|? [|? [|? ?]]]|]; exact Hc. }
    clear Hc. destruct (single_leaf t) as [[|n [|j [|? ?]]]|] eqn:El; try discriminate.
    unfold evs_compile in Hc'. cbn -[nat_of_v opt_nat] in Hc'.
    destruct (nat_of_v (opt_nat l)) as [y'|] eqn:E; [|discriminate]. apply ModulesProofs.nat_of_opt in E. subst l.
    destruct (nat_of_v (opt_nat q)) as [x'|] eqn:E; [|discriminate]. apply ModulesProofs.nat_of_opt in E. subst q.
    destruct Ds as [m|].
    + destruct (a_shape m) as [|x [|y [|c1 [|c2 [|? ?]]]]] eqn:Es; try discriminate.
      destruct (Nat.eqb_spec c1 n) as [->|]; [|discriminate]. destruct (Nat.eqb_spec c2 n) as [->|]; [|discriminate].
      cbn in Hc'. apply Ok_inj' in Hc'. subst o'.
      exists (Some y'), (Some x'), (Some m), mag, ce, tr. split; [reflexivity|]. split; [exact HM|].
      intros w [= <-]. exists n, j, m, x, y. auto.
    + apply Ok_inj' in Hc'. subst o'. destruct (Hd [x'; y'; n; n]) as [D1 D2].
      exists (Some y'), (Some x'), (Some (draw [x'; y'; n; n])), mag, ce, tr. split; [reflexivity|]. split.
      * intros m [= <-]. exists x', y', n. auto.
      * intros w [= <-]. exists n, j. do 3 eexists. repeat split; eauto.
Qed.
Theorem sum_runs k o t : is_sum k -> (forall o c p, fits k o c p -> consistent herm k o c p) ->
  reached herm fits k o (Some t) -> runs k o t.
Proof.
  intros S F H. apply (reached_sum k o _ S F) in H as (l & q & Ds & mag & ce & tr & -> & HM & HC).
  destruct (HC t eq_refl) as (n & j & m & x & y & Hl & -> & Hsh).
  destruct (HM m eq_refl) as (x' & y' & k' & -> & -> & Hsh' & _). rewrite Hsh in Hsh'. injection Hsh' as <- <- <-.
  assert (O : out_shape k (evs_obj (Some y) (Some x) (Some m) mag ce tr) t = jmapM (fun _ => Ok (Some [Some x])) t).
  { destruct S as [-> | ->]; unfold out_shape; rewrite Hl; cbn -[nat_of_v opt_nat jmapM]; rewrite Hsh; cbn [nth];
      rewrite Nat.eqb_refl; unfold size_of; rewrite nat_of_opt'; reflexivity. }
  assert (C : forall d, call k (evs_obj (Some y) (Some x) (Some m) mag ce tr) d = jmapM (sum_leaf (a_shape m)) d).
  { intros d. destruct S as [-> | ->]; reflexivity. }
  exists (cmap [x] t). split.
  - rewrite O, jm_const, tmap_const. reflexivity.
  - intros b. rewrite C, Hsh, tmap_const. apply (run_leaf _ t [n; j]); [exact Hl|].
    cbn [sum_leaf]. unfold axis. rewrite !Nat.eqb_refl. reflexivity.
Qed.
End Life.

(** * Without any restriction on the parameters *)
Lemma herm_always herm fits o c m : reached herm fits KHerm o c -> attr o "Ms" = Ok (VArr m) -> herm m = true.
Proof.
  intros H E. apply reached_herm in H as (n & sm & bt & Ms & mag & tr & -> & HM & _).
  destruct Ms as [m'|]; cbn in E; [|discriminate]. apply Ok_inj' in E. injection E as <-.
  destruct (HM m' eq_refl) as (p & k & _ & _ & E). exact E.
Qed.
Definition weak_sum herm (o : obj) (c : option (tree (list nat))) : Prop :=
  exists l q Ds mag ce t, o = evs_obj l q Ds mag ce t /\ (forall m, Ds = Some m -> herm m = true) /\ (c <> None -> Ds <> None).
Lemma weak_sum_reached herm fits k o c : is_sum k -> reached herm fits k o c -> weak_sum herm o c.
Proof.
  intros S H. unfold weak_sum.
  induction H as [o H|o c p o' _ IH Hf Hp|o c o1 h o' _ IH H1 Hh Hs|o c b _ IH|o c draw t o' _ IH Hd Hc].
  - apply (made_sum herm k o S) in H as (l & q & Ds & g & ce & Hi). apply evs_init_inv in Hi as (l' & q' & -> & HM).
    exists l', q', Ds, g, ce, true. split; [reflexivity|]. split; [|congruence]. intros m E. destruct (HM m E) as (? & ? & ? & _ & _ & _ & E'). exact E'.
  - destruct IH as (l & q & Ds & mag & ce & t & -> & HM & HR).
    rewrite (sum_cls herm k S) in Hp. cbn [set_par evs_cls] in Hp.
    unfold evs_set_par in Hp. destruct p as [| | | | | |a| | | |]; try discriminate. cbn -[nat_of_v opt_nat] in Hp.
    destruct (a_shape a) as [|x [|y [|n [|n' [|? ?]]]]]; try discriminate.
    destruct (nat_of_v (opt_nat q)) as [x'|]; [|discriminate]. destruct (nat_of_v (opt_nat l)) as [y'|]; [|discriminate].
    destruct (str_list_eqb [x; y; n; n'] [x'; y'; n; n]); [|discriminate].
    destruct (herm a) eqn:E2; [|discriminate]. cbn in Hp. apply Ok_inj' in Hp. subst o'.
    exists l, q, (Some a), mag, ce, t. split; [reflexivity|]. split; [|discriminate]. intros m [= <-]. exact E2.
  - destruct IH as (l & q & Ds & mag & ce & t & -> & HM & HR).
    apply (made_sum herm k o1 S) in H1 as (l1 & q1 & Ds1 & g1 & ce1 & Hi). apply evs_init_inv in Hi as (l' & q' & -> & _).
    rewrite (sum_cls herm k S) in Hh, Hs. rewrite evs_hyper in Hh. apply Ok_inj' in Hh. subst h.
    cbn -[opt_nat] in Hs. destruct Ds as [m|]; [discriminate|].
    cbn -[opt_nat] in Hs. unfold set_all in Hs. cbn -[opt_nat] in Hs. apply Ok_inj' in Hs. subst o'.
    exists l', q', None, g1, ce1, t. split; [reflexivity|]. split; [discriminate|]. intros C. destruct (HR C eq_refl).
  - destruct IH as (l & q & Ds & mag & ce & t & -> & HM & HR). exists l, q, Ds, mag, ce, b. auto.
  - destruct IH as (l & q & Ds & mag & ce & tr & -> & HM & HR).
    assert (Hc' : match single_leaf t with Some [n; _] => evs_compile draw (evs_obj l q Ds mag ce tr) n | _ => Err ValueError end = Ok o').
    { destruct S as [-> | ->]; cbn [compile] in Hc; destruct (single_leaf t) as [[|? [|? [|? ?]]]|]; exact Hc. }
    clear Hc. destruct (single_leaf t) as [[|n [|j [|? ?]]]|]; try discriminate.
    unfold evs_compile in Hc'. cbn -[nat_of_v opt_nat] in Hc'.
    destruct (nat_of_v (opt_nat l)) as [y'|]; [|discriminate]. destruct (nat_of_v (opt_nat q)) as [x'|]; [|discriminate].
    destruct Ds as [m|].
    + destruct (a_shape m) as [|x [|y [|c1 [|c2 [|? ?]]]]]; try discriminate. destruct ((c1 =? n) && (c2 =? n)); [|discriminate].
      apply Ok_inj' in Hc'. subst o'. exists l, q, (Some m), mag, ce, tr. split; [reflexivity|]. split; [exact HM|discriminate].
    + apply Ok_inj' in Hc'. subst o'. exists l, q, (Some (draw [x'; y'; n; n])), mag, ce, tr. split; [reflexivity|].
      split; [|discriminate]. intros m [= <-]. apply Hd.
Qed.

Lemma hyper_sum_herm herm fits k o c m : is_sum k -> reached herm fits k o c -> attr o "Ds" = Ok (VArr m) -> herm m = true.
Proof.
  intros S H E. destruct (weak_sum_reached herm fits k o c S H) as (l & q & Ds & mag & ce & t & -> & HM & _).
  destruct Ds as [m'|]; cbn in E; [|discriminate]. apply Ok_inj' in E. injection E as <-. apply HM. reflexivity.
Qed.
Lemma weak_low_reached herm fits o c : reached herm fits KLow o c ->
  exists n r sm bt par mag t, o = lr_obj n r sm bt par mag t /\ (c <> None -> par <> None).
Proof.
  induction 1 as [o H|o c p o' _ IH Hf Hp|o c o1 h o' _ IH H1 Hh Hs|o c b _ IH|o c draw t o' _ IH Hd Hc].
  - inversion H as [|n r s g b o0 Hi| | |]; subst. apply lr_init_inv in Hi as ->.
    exists n, r, s, b, None, g, true. split; [reflexivity|]. congruence.
  - destruct IH as (n & r & sm & bt & par & mag & t & -> & HC).
    cbn [mod_cls set_par lr_cls] in Hp.
    unfold lr_set_par in Hp. destruct p as [| | | | | | | | |tp|]; try discriminate.
    destruct tp as [|l1 tp]; [discriminate|]. destruct l1 as [| | | | | |ls| | | |]; try discriminate.
    destruct tp as [|u1 tp]; [discriminate|]. destruct u1 as [| | | | | |us| | | |]; try discriminate.
    destruct tp as [|? ?]; [|discriminate]. cbn -[nat_of_v opt_nat] in Hp.
    destruct (a_shape us) as [|du ru]; [discriminate|]. destruct (a_shape ls) as [|dl rl]; [discriminate|].
    destruct (nat_of_v (opt_nat n)) as [k|]; [|discriminate]. destruct (nat_of_v (opt_nat r)) as [q|]; [|discriminate].
    match type of Hp with context [negb ?x] => destruct x; [|discriminate] end. cbn [negb] in Hp.
    match type of Hp with context [negb ?x] => destruct x; [|discriminate] end. cbn [negb] in Hp.
    apply Ok_inj' in Hp. subst o'.
    exists n, r, sm, bt, (Some (ls, us)), mag, t. split; [reflexivity|discriminate].
  - destruct IH as (n & r & sm & bt & par & mag & t & -> & HC).
    inversion H1 as [|n1 r1 s1 g1 b1 o0 Hi| | |]; subst. apply lr_init_inv in Hi as ->.
    cbn [mod_cls] in Hh. rewrite lr_hyper in Hh. apply Ok_inj' in Hh. subst h.
    cbn -[opt_nat] in Hs. destruct par as [[l u]|]; [discriminate|].
    cbn -[opt_nat] in Hs. unfold set_all in Hs. cbn -[opt_nat] in Hs. apply Ok_inj' in Hs. subst o'.
    exists n1, r, s1, b1, None, g1, t. split; [reflexivity|]. exact HC.
  - destruct IH as (n & r & sm & bt & par & mag & t & -> & HC). exists n, r, sm, bt, par, mag, b. auto.
  - destruct IH as (n & r & sm & bt & par & mag & tr & -> & HC). cbn [compile] in Hc.
    destruct (single_leaf t) as [[|d [|? ?]]|] eqn:El; try discriminate.
    unfold lr_compile in Hc. cbn -[nat_of_v opt_nat] in Hc. destruct par as [[l u]|].
    + destruct (Nat.eqb (hd 0 (a_shape u)) (if bt then S d else d)); [|discriminate]. apply Ok_inj' in Hc. subst o'.
      exists n, r, sm, bt, (Some (l, u)), mag, tr. split; [reflexivity|discriminate].
    + destruct (nat_of_v (opt_nat n)) as [k|]; [|discriminate]. destruct (nat_of_v (opt_nat r)) as [q|]; [|discriminate].
      set (p := if bt then S d else d) in *. apply Ok_inj' in Hc. subst o'.
      exists n, r, sm, bt, (Some (draw [p; q], draw [p; k; q])), mag, tr. split; [reflexivity|discriminate].
Qed.
Theorem compiled_refuses herm fits k o t h o' : reached herm fits k o (Some t) -> set_hyper (mod_cls herm k) o h <> Ok o'.
Proof.
  assert (S : is_sum k \/ k = KHerm \/ k = KTensor \/ k = KLow) by (unfold is_sum; destruct k; auto).
  intros H. destruct S as [S | S].
  - destruct (weak_sum_reached herm fits k o _ S H) as (l & q & Ds & mag & ce & tr & -> & _ & HR).
    rewrite (sum_cls herm k S). destruct Ds as [m|]; [discriminate|]. destruct HR; [discriminate|reflexivity].
  - destruct S as [S | [S | S]]; subst k.
    + apply reached_herm in H as (n & sm & bt & Ms & mag & tr & -> & _ & HC).
      destruct (HC t eq_refl) as (d & k & m & _ & _ & -> & _). discriminate.
    + apply reached_tensor in H as (n & sm & Ms & mag & bt & tr & -> & _ & HC).
      destruct (HC t eq_refl) as (d & k & m & _ & _ & -> & _). discriminate.
    + destruct (weak_low_reached herm fits o _ H) as (n & r & sm & bt & par & mag & tr & -> & HR).
      destruct par as [[l u]|]; [discriminate|]. destruct HR; [discriminate|reflexivity].
Qed.

(** Compiling a ready module does not change it. *)
Lemma ready_kept k draw o t o' : ready k o = true -> compile k draw o t = Ok o' -> o' = o.
Proof.
  destruct k; cbn [ready compile]; intros R H.
  - destruct (single_leaf t) as [[|d [|? ?]]|]; try discriminate. unfold ahm_compile in H. destruct (attr o "bias_term"); [|discriminate].
    cbn [rbind] in H. destruct (attr o "Ms") as [v|]; [|discriminate]. destruct v as [| | | | | |am| | | |]; try discriminate. cbn [rbind] in H.
    destruct (attr o "matrix_size"); [|discriminate]. cbn [rbind] in H. destruct (Nat.eqb _ _); [|discriminate]. congruence.
  - destruct (single_leaf t) as [[|d [|? ?]]|]; try discriminate. unfold lr_compile in H. destruct (attr o "bias_term"); [|discriminate].
    cbn [rbind] in H. destruct (attr o "us") as [v|]; [|discriminate]. destruct v as [| | | | | |am| | | |]; try discriminate. cbn [rbind] in H.
    destruct (attr o "ls") as [v|]; [|discriminate]. destruct v as [| | | | | |am'| | | |]; try discriminate. cbn [rbind] in H.
    destruct (attr o "matrix_size"); [|discriminate]. destruct (attr o "matrix_rank"); [|discriminate].
    cbn [rbind] in H. destruct (Nat.eqb _ _); [|discriminate]. congruence.
  - destruct (single_leaf t) as [[|d [|? ?]]|]; try discriminate. unfold at_compile in H. destruct (attr o "bias_term"); [|discriminate].
    cbn [rbind] in H. destruct (attr o "Ms") as [v|]; [|discriminate]. destruct v as [| | | | | |am| | | |]; try discriminate. cbn [rbind] in H.
    destruct (attr o "tensor_shape"); [|discriminate]. cbn [rbind] in H. destruct (Nat.eqb _ _); [|discriminate]. congruence.
  - destruct (single_leaf t) as [[|d [|? [|? ?]]]|]; try discriminate. unfold evs_compile in H. destruct (attr o "num_observables"); [|discriminate].
    destruct (attr o "output_size"); [|discriminate]. cbn [rbind] in H.
    destruct (attr o "Ds") as [v|]; [|discriminate]. destruct v as [| | | | | |am| | | |]; try discriminate. cbn [rbind] in H.
    destruct (nat_of_v _); [|discriminate]. destruct (nat_of_v _); [|discriminate]. destruct (a_shape am) as [|? [|? [|? [|? [|? ?]]]]]; try discriminate.
    destruct (_ && _); [|discriminate]. congruence.
  - destruct (single_leaf t) as [[|d [|? [|? ?]]]|]; try discriminate. unfold evs_compile in H. destruct (attr o "num_observables"); [|discriminate].
    destruct (attr o "output_size"); [|discriminate]. cbn [rbind] in H.
    destruct (attr o "Ds") as [v|]; [|discriminate]. destruct v as [| | | | | |am| | | |]; try discriminate. cbn [rbind] in H.
    destruct (nat_of_v _); [|discriminate]. destruct (nat_of_v _); [|discriminate]. destruct (a_shape am) as [|? [|? [|? [|? [|? ?]]]]]; try discriminate.
    destruct (_ && _); [|discriminate]. congruence.
Qed.
