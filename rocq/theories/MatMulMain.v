From Coq Require Import Permutation Sorted Ring_theory.
From Verif Require Import Base BaseLemmas TreeUtil TreeSpec TreeProofs NonSeqSpec NonSeqProofs Seq SerialSpec SeqProofs TrainArgs TrainArgsProofs NdArray OneHot OneHotProofs ReshapeProofs ReshapeMain Einsum EinsumSpec EinsumProofs EinsumMain EinsumCompute EinsumBatch MatMul MatMulSpec MatMulCore PathOrder.
Local Open Scope string_scope.
Local Open Scope list_scope.
Local Open Scope nat_scope.

Lemma rmapM_ok {A B} (f : A -> result B) l : forall ys, rmapM f l = Ok ys -> Forall2 (fun x y => f x = Ok y) l ys.
Proof.
  induction l as [|x l IH]; intros ys H; cbn in H; [injection H as <-; constructor|].
  apply rbind_ok in H as (y & Hy & H). apply rbind_ok in H as (ys' & Hs & H). injection H as <-. constructor; [exact Hy|apply IH; exact Hs].
Qed.
Lemma at_index_ok {A} (l : list A) i x : at_index l i = Ok x <-> nth_error l i = Some x.
Proof. unfold at_index. destruct (nth_error l i); split; congruence. Qed.
Lemma index_char_ch i a : index_char i = Ok a -> i < 52 /\ a = ch i.
Proof.
  unfold index_char. intros H. apply at_index_ok in H. assert (i < 52) by (change 52 with (length alphabet); apply nth_error_Some; congruence).
  split; [assumption|]. unfold ch. erewrite nth_error_nth; [reflexivity|exact H].
Qed.
Lemma ch_letter i : i < 52 -> letter (ch i).
Proof. intros H. apply alphabet_letter. unfold ch. apply nth_In. exact H. Qed.

Definition cut (i : nat) (s : list nat) : list ascii := if length s =? 2 then [ch i; ch (S i)] else [ch i].
Lemma term_ok i s t : MatMul.term i s = Ok t -> chars t = cut i s /\ word t /\ t <> "".
Proof.
  unfold MatMul.term, cut. intros H. apply rbind_ok in H as (a & Ha & H). apply index_char_ch in Ha as [Hi ->].
  destruct (length s =? 2).
  - apply rbind_ok in H as (b & Hb & H). apply index_char_ch in Hb as [Hj ->]. injection H as <-. replace (i + 1) with (S i) in * by lia. repeat split; [|discriminate].
    intros c [ <- |[ <- |[]]]; apply ch_letter; assumption.
  - injection H as <-. repeat split; [|discriminate]. intros c [ <- |[]]; apply ch_letter; assumption.
Qed.
Lemma terms_ok l : forall i ts, terms i l = Ok ts -> length ts = length l /\
  forall k t, nth_error ts k = Some t -> chars t = cut (i + k) (nth k l []) /\ word t /\ t <> "".
Proof.
  induction l as [|s l IH]; intros i ts H; cbn in H.
  - injection H as <-. split; [reflexivity|]. intros [|k] t; discriminate.
  - apply rbind_ok in H as (t & Ht & H). apply rbind_ok in H as (ts' & Hs & H). injection H as <-.
    destruct (IH _ _ Hs) as [E F]. split; [cbn; congruence|]. intros [|k] t' Hk; cbn in *.
    + injection Hk as ->. rewrite Nat.add_0_r. apply term_ok. exact Ht.
    + replace (i + S k) with (S i + k) by lia. apply F. exact Hk.
Qed.

Section Main.
Context {V : Type} (zero one : V) (add mul : V -> V -> V) (SR : semi_ring_theory zero one add mul eq).
Notation sample := (sample_of zero).

Lemma pars_list (o : option (arr V)) : par_list (pars_of o) = match o with Some a => [a] | None => [] end.
Proof. destruct o; reflexivity. Qed.
Lemma compile_inv L I given train (o : option (arr V)) normal sh full p :
  length I = length (leaves sh) -> leaves sh <> [] -> Forall (fun t => word t /\ t <> "") (L ++ I) -> length L <= 1 -> (o <> None -> L <> []) ->
  einsum_compile (Leaf (join comma (L ++ I))) given train (pars_of o) normal sh = Ok (full, p) ->
  exists b par, letter b /\ fresh b (default_out L I None :: L ++ I) /\ full = batched L I (default_out L I None) b /\ p = pars_of par /\
    length L = length (par_list p) /\
    match o with Some a => par = Some a | None => if train then L = [] \/ exists s, par = Some (normal s) else par = None end.
Proof.
  intros HI Hne FW HL Ho H. unfold einsum_compile in H. apply rbind_ok in H as (c & HC & H).
  assert (FW' : Forall word (L ++ I)) by (eapply Forall_impl; [|exact FW]; intros t [W _]; exact W).
  assert (HS : solid_first I).
  { right. destruct I as [|t I]; [destruct (leaves sh); [congruence|discriminate]|]. apply Forall_app in FW as [_ FW]. cbn. apply (proj2 (Forall_inv FW)). }
  assert (IN : I <> []) by (apply solid_nonempty; exact HS).
  replace (join comma (L ++ I)) with (written L I None) in HC by (unfold written; apply commas_join).
  apply concrete_text_inv in HC as (b & Hb & Fb & -> & _); [|exact HI|exact HS| |exact FW'|discriminate].
  2: { intros E. apply Ho. destruct o; [discriminate|]. cbn in E. discriminate. }
  assert (FO : Forall word (default_out L I None :: L ++ I)) by (constructor; [apply default_word; [exact FW'|discriminate]|exact FW']).
  apply rbind_ok in H as (d & HD & H). apply rbind_ok in H as (io & HP & H).
  rewrite parse_batched in HP by assumption. injection HP as <-. cbn [fst] in H.
  assert (EA : all_but_last (length (leaves sh)) (map chars L ++ map (fun s => b :: chars s) I) = map chars L).
  { unfold all_but_last. destruct (Nat.eqb_spec (length (leaves sh)) 0) as [E|_]; [destruct (leaves sh); [congruence|discriminate]|].
    rewrite app_length, (map_length _ I), HI. replace (length (map chars L) + length (leaves sh) - length (leaves sh)) with (length (map chars L) + 0) by lia.
    rewrite firstn_app_2. apply app_nil_r. }
  rewrite EA in H. apply rbind_ok in H as (p' & Hp & H). apply rbind_ok in H as (u & _ & H). injection H as <- <-.
  destruct L as [|t [|t' L]]; [| |cbn in HL; lia]; destruct o as [a|]; cbn [pars_of map] in Hp.
  - exfalso. apply Ho; [discriminate|reflexivity].
  - injection Hp as <-. exists b, None. repeat split; try assumption; try reflexivity. destruct train; auto.
  - injection Hp as <-. exists b, (Some a). repeat split; try assumption; reflexivity.
  - apply rbind_ok in Hp as (u' & Ht & Hp). destruct train; [|discriminate]. apply rbind_ok in Hp as (ss & Hss & Hp).
    cbn in Hss. apply rbind_ok in Hss as (s & _ & Hss). injection Hss as <-. injection Hp as <-.
    exists b, (Some (normal s)). repeat split; try assumption; try reflexivity. right. exists s. reflexivity.
Qed.

(** the einsum of one sample *)
Lemma run_sample L I b (par : option (arr V)) data r beta xs :
  length L = length (par_list (pars_of par)) -> length I = length (leaves data) -> I <> [] -> letter b -> fresh b (default_out L I None :: L ++ I) ->
  np_einsum zero one add mul (map chars L ++ map (cons b) (map chars I)) (b :: chars (default_out L I None)) (par_list (pars_of par) ++ leaves data) = Ok r ->
  beta < hd 0 (shp r) -> Forall2 (sample beta) (leaves data) xs ->
  exists n a, np_einsum zero one add mul (map chars (L ++ I)) (once (concat (map chars (L ++ I)))) (par_list (pars_of par) ++ xs) = Ok a /\
    shp r = n :: shp a /\ forall idx, valid (shp a) idx -> cell zero r (beta :: idx) = cell zero a idx.
Proof.
  intros HL HI IN Hb Fb H Hbeta HX.
  destruct (batch_samples zero one add mul (map chars L) (map chars I) (chars (default_out L I None)) b (par_list (pars_of par)) (leaves data) r beta xs) as (n & a & Ha & Sa & _ & Ea).
  - rewrite map_length. exact HL.
  - destruct I; [congruence|discriminate].
  - rewrite map_length. exact HI.
  - intros w Hw Hbw. rewrite <- map_app in Hw. change (chars (default_out L I None) :: map chars (L ++ I)) with (map chars (default_out L I None :: L ++ I)) in Hw.
    apply in_map_iff in Hw as (s & <- & Hs'). exact (Fb s Hs' Hbw).
  - exact H.
  - exact Hbeta.
  - exact HX.
  - exists n, a. rewrite map_app. unfold default_out in Ha. rewrite chars_string in Ha. rewrite map_app in Ha. auto.
Qed.

(* ---- the pieces of a run ---- *)
Lemma none_index_first l i : none_index l = Some i -> nth_error l i = Some None.
Proof.
  revert i. induction l as [|[s|] l IH]; intros i H; cbn in H; [discriminate| |injection H as <-; reflexivity].
  destruct (none_index l) as [j|]; [|discriminate]. injection H as <-. cbn. apply IH. reflexivity.
Qed.
Lemma none_index_none l : none_index l = None -> Forall (fun o => o <> None) l.
Proof.
  induction l as [|[s|] l IH]; intros H; cbn in H; [constructor| |discriminate]. constructor; [discriminate|]. apply IH. destruct (none_index l); [discriminate|reflexivity].
Qed.
Definition has_par (m : matmul V) : bool := mm_train m || is_some (mm_par m).
Lemma param_slot_ok (m : matmul V) l q : param_slot m l = Ok q ->
  match q with
  | Some (i, s) => has_par m = true /\ none_index l = Some i /\ (mm_par m = None -> length s = 1 \/ length s = 2) /\ (forall a, mm_par m = Some a -> s = shp a)
  | None => has_par m = false /\ none_index l = None
  end.
Proof.
  unfold param_slot, has_par. destruct (mm_par m) as [a|] eqn:Ea.
  - destruct (none_index l) as [i|]; [|discriminate]. intros H. injection H as <-. rewrite orb_true_r. repeat split; [discriminate|congruence].
  - destruct (mm_train m).
    + intros H. apply rbind_ok in H as ([i s] & Hi & H). injection H as <-. cbn [orb is_some]. split; [reflexivity|].
      assert (G : none_index l = Some i /\ (length s = 1 \/ length s = 2)); [|destruct G; repeat split; [assumption|tauto|discriminate]].
      unfold infer_shape in Hi. destruct (none_index l) as [j|]; [|discriminate].
      destruct (j =? 0).
      { destruct (mm_out m) as [o|]; [|discriminate]. apply rbind_ok in Hi as (r & _ & Hi). apply rbind_ok in Hi as (c & _ & Hi). injection Hi as <- <-. auto. }
      destruct (j =? length l - 1).
      { destruct (mm_out m) as [[n|t]|].
        - apply rbind_ok in Hi as (f & _ & Hi). destruct (n =? f); [|discriminate]. apply rbind_ok in Hi as (r & _ & Hi). injection Hi as <- <-. auto.
        - apply rbind_ok in Hi as (x & _ & Hi). apply rbind_ok in Hi as (f & _ & Hi). destruct (match x with Some n => n =? f | None => false end); [|discriminate].
          apply rbind_ok in Hi as (r & _ & Hi). apply rbind_ok in Hi as (c & _ & Hi). apply rbind_ok in Hi as (c' & _ & Hi). injection Hi as <- <-. auto.
        - apply rbind_ok in Hi as (r & _ & Hi). injection Hi as <- <-. auto. }
      apply rbind_ok in Hi as (r & _ & Hi). apply rbind_ok in Hi as (c & _ & Hi). injection Hi as <- <-. auto.
    + destruct (none_index l) as [i|]; [discriminate|]. intros H. injection H as <-. auto.
Qed.

Lemma subs_inv (m : matmul V) sh sd : matmul_subs m sh = Ok sd -> exists l q ts perm ts', check_dims sh = Ok tt /\ slots m sh = Ok l /\ param_slot m l = Ok q /\
  check_vectors (fill_slots q l) = Ok tt /\ terms 0 (fill_slots q l) = Ok ts /\ operand_order m q (length ts) = Ok perm /\
  rmapM (at_index ts) perm = Ok ts' /\ fst sd = join comma ts'.
Proof.
  intros H. unfold matmul_subs in H. apply rbind_ok in H as ([] & H1 & H). apply rbind_ok in H as (l & H2 & H). apply rbind_ok in H as (q & H3 & H).
  apply rbind_ok in H as ([] & H4 & H). apply rbind_ok in H as (u & _ & H). apply rbind_ok in H as (ts & H5 & H). apply rbind_ok in H as (d & _ & H).
  apply rbind_ok in H as (perm & H6 & H). apply rbind_ok in H as (ts' & H7 & H). injection H as <-. exists l, q, ts, perm, ts'. repeat split; assumption.
Qed.

(** all shapes are matrices but the last, which is a matrix or a vector *)
Lemma shapes_kind l : Forall (fun s : list nat => length s = 1 \/ length s = 2) l -> check_vectors l = Ok tt -> l <> [] ->
  exists vec : bool, forall i, i < length l -> cut i (nth i l []) = tm vec (length l) i.
Proof.
  intros HF HV HN. exists (negb (length (nth (length l - 1) l []) =? 2)). intros i Hi. unfold cut, tm.
  rewrite Forall_forall in HF.
  destruct (Nat.eqb_spec (S i) (length l)) as [E|E].
  - replace (length l - 1) with i by lia. destruct (length (nth i l []) =? 2); reflexivity.
  - rewrite andb_false_r. apply require_ok in HV. rewrite forallb_forall in HV.
    assert (Hin : In (nth i l []) (removelast l)).
    { rewrite (app_removelast_last [] HN) at 1. rewrite app_nth1; [apply nth_In|]; rewrite removelast_firstn_len, firstn_length; lia. }
    specialize (HV _ Hin). destruct (HF (nth i l [])) as [G|G]; [apply nth_In; exact Hi| |].
    + rewrite G in HV. discriminate.
    + rewrite G. reflexivity.
Qed.

Lemma run_inv (m : matmul V) normal sh data pr : matmul_run zero one add mul m normal sh data = Ok pr ->
  exists l q perm, slots m sh = Ok l /\ param_slot m l = Ok q /\ operand_order m q (length l) = Ok perm.
Proof.
  intros H. unfold matmul_run in H. apply rbind_ok in H as (fp & HC & _). unfold matmul_compile in HC. apply rbind_ok in HC as (sd & HSd & _).
  destruct (subs_inv _ _ _ HSd) as (l & q & ts & perm & ts' & H1 & H2 & H3 & H4 & H5 & H6 & _). exists l, q, perm. split; [exact H2|]. split; [exact H3|].
  destruct (terms_ok _ _ _ H5) as [Lts _]. unfold fill_slots in Lts. rewrite map_length in Lts. rewrite Lts in H6. exact H6.
Qed.
Lemma F2_map_eq {A B C} (R : A -> B -> Prop) (f : A -> C) (g : B -> C) l m : (forall a b, In a l -> R a b -> f a = g b) -> Forall2 R l m -> map f l = map g m.
Proof. intros H F. induction F as [|a b l m E F IH]; [reflexivity|]. cbn. rewrite (H a b); [|left; reflexivity|exact E]. f_equal. apply IH. intros x y Hx. apply H. right. exact Hx. Qed.
Lemma dims_ok sh s : check_dims sh = Ok tt -> In s (leaves sh) -> length s = 1 \/ length s = 2.
Proof.
  intros H Hs. unfold check_dims in H. apply rbind_ok in H as (u & H & _). apply require_ok in H. rewrite forallb_forall in H.
  specialize (H (length s) (in_map _ _ _ Hs)). apply orb_true_iff in H as [H|H]; apply Nat.eqb_eq in H; auto.
Qed.

(** the common part: operands [ops] with the order [perm] *)
Lemma run_product (m : matmul V) normal sh data p r l q perm : leaves sh <> [] -> length (leaves sh) = length (leaves data) ->
  length (leaves sh) + (if has_par m then 1 else 0) <= 25 ->
  slots m sh = Ok l -> param_slot m l = Ok q -> operand_order m q (length l) = Ok perm ->
  length l = length (leaves sh) + (if has_par m then 1 else 0) ->
  (forall s, In (Some s) l -> In s (leaves sh)) ->
  Permutation perm (seq 0 (length l)) ->
  (has_par m = true -> exists perm', (exists i, none_index l = Some i /\ perm = i :: perm')) ->
  matmul_run zero one add mul m normal sh data = Ok (p, r) ->
  exists par, p = pars_of par /\
    match mm_par m with Some a => par = Some a | None => if mm_train m then exists s, par = Some (normal s) else par = None end /\
    forall d beta xs, beta < hd 0 (shp r) -> Forall2 (sample beta) (leaves data) xs ->
    forall ops, length ops = length l -> map (fun i => nth i ops d) perm = par_list p ++ xs ->
    exists a, compatible ops /\ is_product zero add mul ops a /\ (exists n, shp r = n :: shp a) /\ wf_arr a /\
       forall idx, valid (shp a) idx -> cell zero r (beta :: idx) = cell zero a idx.
Proof.
  intros Hne HLD H25 E2 E3 E6 Hlen Hsl HP Hpar H. unfold matmul_run in H. apply rbind_ok in H as ([full p'] & HC & H). apply rbind_ok in H as (io & HPa & H). apply rbind_ok in H as (r' & HE & H).
  cbn [fst snd] in *. injection H as -> ->.
  unfold matmul_compile in HC. apply rbind_ok in HC as (sd & HSd & HC). destruct (subs_inv _ _ _ HSd) as (l0 & q0 & ts & perm0 & ts' & H1 & H2 & H3 & H4 & H5 & H6 & H7 & H8).
  rewrite E2 in H2. injection H2 as <-. rewrite E3 in H3. injection H3 as <-.
  destruct (terms_ok _ _ _ H5) as [Lts Ets]. assert (Lf : length (fill_slots q l) = length l) by (unfold fill_slots; apply map_length).
  rewrite Lts, Lf, E6 in H6. injection H6 as <-. rewrite H8 in HC.
  apply rmapM_ok in H7.
  assert (F7 : Forall2 (fun i t => nth_error ts i = Some t) perm ts') by (eapply F2_impl'; [|exact H7]; intros i t E; apply at_index_ok; exact E). clear H7.
  assert (Lp : length perm = length l) by (rewrite (Permutation_length HP), seq_length; reflexivity).
  assert (Lt' : length ts' = length l) by (rewrite <- (F2_len _ _ _ F7); exact Lp).
  assert (FW : Forall (fun t => word t /\ t <> "") ts').
  { clear -F7 Ets. induction F7 as [|i t perm ts' E F IH]; constructor; [|exact IH]. apply (Ets i t E). }
  (* leading and data terms *)
  assert (exists L I, ts' = L ++ I /\ length I = length (leaves sh) /\ length L = (if has_par m then 1 else 0)) as (L & I & -> & LI & LL).
  { exists (firstn (if has_par m then 1 else 0) ts'), (skipn (if has_par m then 1 else 0) ts'). split; [symmetry; apply firstn_skipn|].
    rewrite skipn_length, firstn_length. lia. }
  assert (LL1 : length L <= 1) by (destruct (has_par m); lia).
  assert (LLo : mm_par m <> None -> L <> []).
  { intros Ho. unfold has_par in LL. destruct (mm_par m); [|congruence]. rewrite orb_true_r in LL. destruct L; discriminate. }
  destruct (compile_inv _ _ _ _ _ _ _ _ _ LI Hne FW LL1 LLo HC) as (b & par & Hb & Fb & -> & -> & Lpar & Hwho).
  assert (IN : I <> []) by (intros ->; destruct (leaves sh); [congruence|discriminate]).
  assert (FO : Forall word (default_out L I None :: L ++ I)).
  { assert (FW' : Forall word (L ++ I)) by (eapply Forall_impl; [|exact FW]; intros t [W _]; exact W). constructor; [apply default_word; [exact FW'|discriminate]|exact FW']. }
  rewrite parse_batched in HPa by assumption. injection HPa as <-. cbn [fst snd] in HE. rewrite chars_cons in HE.
  exists par. split; [reflexivity|]. split.
  { destruct (mm_par m) as [a|] eqn:Ea; [exact Hwho|]. destruct (mm_train m) eqn:Et; [|exact Hwho]. destruct Hwho as [ -> |G]; [|exact G].
    unfold has_par in LL. rewrite Et in LL. discriminate. }
  intros d beta xs Hbeta HX ops Lops Hops.
  destruct (run_sample L I b par data r beta xs Lpar ltac:(lia) IN Hb Fb HE Hbeta HX) as (n & a & Ha & Sa & Ea).
  (* all shapes *)
  assert (FS : Forall (fun s => length s = 1 \/ length s = 2) (fill_slots q l)).
  { apply Forall_forall. intros s Hs. unfold fill_slots in Hs. apply in_map_iff in Hs as (o & <- & Ho). destruct o as [s'|]; [eapply dims_ok; [exact H1|]; apply Hsl; exact Ho|].
    pose proof (param_slot_ok _ _ _ E3) as Q. destruct q as [[i s]|]; cbn [snd].
    - destruct Q as (Q1 & Q2 & Q3 & Q4). destruct (mm_par m) as [pa|] eqn:Epa; [|apply Q3; reflexivity]. subst par.
      destruct (Hpar Q1) as (perm' & i' & Ei & ->). rewrite Q2 in Ei. injection Ei as <-.
      destruct L as [|t0 [|t1 L]]; [rewrite Q1 in LL; discriminate| |destruct (has_par m); discriminate].
      inversion F7 as [|x y lx ly G1 G2 Gx Gy]; subst. destruct (Ets i t0 G1) as [Ec _].
      destruct (np_einsum_ok _ _ _ _ _ _ _ _ HE) as (f & _ & HF & _). cbn in HF. pose proof (Forall_inv HF) as HF1. cbn in HF1.
      rewrite (Q4 pa eq_refl). rewrite HF1, map_length, Ec. unfold cut. destruct (_ =? 2); auto.
    - destruct Q as [_ Q]. pose proof (none_index_none _ Q) as G. rewrite Forall_forall in G. exfalso. exact (G None Ho eq_refl). }
  assert (Ln : l <> []) by (intros ->; cbn in Hlen; destruct (leaves sh); [congruence|discriminate]).
  destruct (shapes_kind _ FS H4) as (vec & Hvec); [intros E; apply Ln; destruct l; [reflexivity|discriminate]|]. rewrite Lf in Hvec.
  assert (Hlt : forall i, In i perm -> i < length l) by (intros i Hi; apply (Permutation_in _ HP) in Hi; apply in_seq in Hi; lia).
  assert (EC : map chars (L ++ I) = map (tm vec (length l)) perm).
  { symmetry. eapply F2_map_eq; [|exact F7]. intros i t Hi E. cbv beta in E. destruct (Ets i t E) as [Ec _]. rewrite Ec. cbn [Nat.add]. symmetry. apply Hvec. apply Hlt. exact Hi. }
  assert (L1 : 1 <= length l) by (destruct l; [congruence|cbn; lia]).
  rewrite <- Hops, EC in Ha. rewrite once_outl in Ha; [|exact L1|unfold last_letter; destruct vec; lia|exact HP].
  rewrite <- Lops in Ha, HP.
  destruct (chain_einsum zero one add mul SR d vec ops perm a) as (C1 & C2 & C3); [lia|unfold last_letter; destruct vec; lia|exact HP|exact Ha|].
  exists a. repeat split; [exact C1|exact C2|exists n; exact Sa|exact C3|exact Ea].
Qed.
End Main.
