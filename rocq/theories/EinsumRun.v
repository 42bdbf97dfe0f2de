From Coq Require Import Permutation Sorted.
From Verif Require Import Base BaseLemmas TreeUtil TreeSpec NonSeqSpec Seq SerialSpec SeqProofs TrainArgs NdArray OneHot Einsum EinsumSpec EinsumProofs EinsumMain EinsumCompute EinsumBatch MatMul MatMulMain EinsumObj ExtendOrder.
Local Open Scope string_scope.
Local Open Scope list_scope.
Local Open Scope nat_scope.

Lemma cut_last {A} (L I : list A) k : length I = k -> k <> 0 -> all_but_last k (L ++ I) = L /\ last_ones k (L ++ I) = I.
Proof.
  intros HL Hk. unfold all_but_last, last_ones. destruct (Nat.eqb_spec k 0); [congruence|]. rewrite app_length, HL. split.
  - replace (length L + k - k) with (length L + 0) by lia. rewrite firstn_app_2. apply app_nil_r.
  - rewrite skipn_app, skipn_all2 by lia. cbn [app]. replace (length L + k - k - length L) with 0 by lia. reflexivity.
Qed.
Lemma out_sizes_index d w s : out_sizes d w = Ok s -> s = map (index_in d) w.
Proof.
  intros H. unfold out_sizes in H. apply rmapM_ok in H. induction H as [|c n w s E F IH]; [reflexivity|]. cbn [map]. rewrite <- IH. f_equal.
  unfold index_in. destruct (size_of d c); [congruence|discriminate].
Qed.
Lemma strict_nodup l : StronglySorted (fun a b => nat_of_ascii a < nat_of_ascii b) l -> NoDup l.
Proof.
  induction 1 as [|a l S IH F]; constructor; [|exact IH]. intros Hin. rewrite Forall_forall in F. pose proof (F a Hin). lia.
Qed.
Lemma omitted_fits l o : omitted l o -> NoDup (chars o) /\ forall c, In c (chars o) -> exists s, In s l /\ In c (chars s).
Proof.
  intros [S H]. split; [apply strict_nodup; exact S|]. intros c Hc. apply H in Hc. rewrite <- count_concat in Hc.
  assert (In c (concat (map chars l))). { unfold count in Hc. apply (count_occ_In ascii_dec). lia. } apply in_concat_chars. assumption.
Qed.

Section Run.
Context {V : Type} (zero one : V) (add mul : V -> V -> V).
Lemma pars_fit d (leading : list (list ascii)) (p : pars V) : check_pars d leading p = Ok tt -> (p = NoPars -> leading = []) ->
  Forall2 (fun w a => shp a = map (index_in d) w) leading (par_list p).
Proof.
  assert (G : forall leading ss (ps : list (arr V)), rmapM (sizes_of d) leading = Ok ss -> length ss = length ps -> forallb (fun sa => list_eqb (fst sa) (shp (snd sa))) (combine ss ps) = true ->
    Forall2 (fun w a => shp a = map (index_in d) w) leading ps).
  { intros ld ss ps HS. apply rmapM_ok in HS. revert ps. induction HS as [|w s ld ss E F IH]; intros [|b ps] HL HF; try discriminate; [constructor|].
    cbn [combine forallb fst snd] in HF. apply andb_true_iff in HF as [F1 F2]. constructor; [|apply IH; [cbn in HL; lia|exact F2]].
    unfold list_eqb in F1. destruct (list_eq_dec Nat.eq_dec s (shp b)) as [<-|]; [|discriminate]. apply out_sizes_index. exact E. }
  intros H HN. destruct p as [|a|l]; [rewrite HN by reflexivity; constructor|..]; unfold check_pars in H; apply rbind_ok in H as (ss & HS & H); apply rbind_ok in H as ([] & HL & HF);
    apply require_ok in HL, HF; apply Nat.eqb_eq in HL; exact (G _ _ _ HS HL HF).
Qed.

Lemma dim_facts L I out b given (p : pars V) sh d : leaves sh <> [] -> I <> [] -> letter b -> fresh b (out :: L ++ I) -> Forall word (out :: L ++ I) ->
  length I = length (leaves sh) -> dimension_map given p (batched L I out b) sh = Ok d ->
  keeps (match given with Some g => g | None => [] end) d /\ Forall2 (fun s t => t = map (index_in d) (chars s)) I (leaves sh).
Proof.
  intros Hn IN Hb Fb FW HL Hd. assert (Hn0 : length (leaves sh) <> 0) by (destruct (leaves sh); [congruence|discriminate]).
  unfold dimension_map in Hd. rewrite parse_batched in Hd by assumption. cbn [rbind] in Hd. 
  assert (EW : map (without b) (map chars L ++ map (fun s => b :: chars s) I) = map chars L ++ map chars I).
  { rewrite map_app. f_equal; [apply map_id_in; intros x Hx; apply without_fresh; apply in_map_iff in Hx as (s & <- & Hs); apply (Fb s); right; apply in_or_app; left; exact Hs|].
    rewrite map_map. apply map_ext_in. intros s Hs. apply without_cons. apply (Fb s). right. apply in_or_app. right. exact Hs. }
  rewrite EW in Hd. destruct (cut_last (map chars L) (map chars I) (length (leaves sh)) ltac:(rewrite map_length; exact HL) Hn0) as [EA' EL]. rewrite EA', EL in Hd.
  apply rbind_ok in Hd as (d1 & H1 & Hd). apply rbind_ok in Hd as (d2 & H2 & Hd). destruct (forallb _ _) in Hd; [|discriminate]. injection Hd as ->.
  apply bind_operands_ok in H1 as (K1 & B1 & _).
  assert (K2 : keeps d1 d).
  { destruct p as [|a|[|a l0]]; cbn in H2.
    - injection H2 as <-. intros x k E. exact E.
    - destruct (_ =? _) in H2; [|discriminate]. apply bind_operands_ok in H2. tauto.
    - destruct (_ =? _) in H2; [|discriminate]. injection H2 as <-. intros x k E. exact E.
    - discriminate. }
  split; [intros c k E; apply K2, K1, E|].
  assert (B2 : Forall (bound_by d) (combine (map chars I) (leaves sh))) by (eapply Forall_impl; [|exact B1]; intros q; apply keeps_bound; exact K2).
  clear -B2 HL. revert B2 HL. generalize (leaves sh). induction I as [|s I IH]; intros [|t ts] B2 HL; try discriminate; constructor.
  - exact (bound_map _ _ (Forall_inv B2)).
  - apply IH; [exact (Forall_inv_tail B2)|cbn in HL; lia].
Qed.
Lemma run_core L I out b given (p : pars V) sh ps data d n : leaves sh <> [] -> I <> [] -> letter b -> fresh b (out :: L ++ I) -> Forall word (out :: L ++ I) ->
  length I = length (leaves sh) -> dimension_map given p (batched L I out b) sh = Ok d ->
  Forall2 (fun w a => shp a = map (index_in d) w) (map chars L) ps ->
  NoDup (chars out) -> (forall c, In c (chars out) -> exists s, In s (L ++ I) /\ In c (chars s)) ->
  Forall2 (fun t x => shp x = n :: t) (leaves sh) data ->
  exists r, np_einsum zero one add mul (map chars L ++ map (cons b) (map chars I)) (b :: chars out) (ps ++ data) = Ok r /\ shp r = n :: map (index_in d) (chars out).
Proof.
  intros Hn IN Hb Fb FW HL Hd HP ND HO HD. destruct (dim_facts _ _ _ _ _ _ _ _ Hn IN Hb Fb FW HL Hd) as [_ B2].
  assert (FrL : forall w, In w (map chars L) -> ~ In b w).
  { intros w Hw. apply in_map_iff in Hw as (x & <- & Hx). apply (Fb x). right. apply in_or_app. left. exact Hx. }
  assert (FrI : forall w, In w I -> ~ In b (chars w)).
  { intros w Hw. apply (Fb w). right. apply in_or_app. right. exact Hw. }
  assert (Fo : ~ In b (chars out)) by (apply (Fb out); left; reflexivity).
  set (f := fun c => if Ascii.eqb c b then n else index_in d c).
  assert (Ef : forall w, ~ In b w -> map f w = map (index_in d) w).
  { intros w Hw. apply map_ext_in. intros c Hc. unfold f. destruct (Ascii.eqb_spec c b) as [ -> |]; [contradiction|reflexivity]. }
  assert (Fb' : f b = n) by (unfold f; rewrite Ascii.eqb_refl; reflexivity).
  pose proof (F2_len _ _ _ HP) as LP. pose proof (F2_len _ _ _ HD) as LD.
  destruct (np_einsum_acc zero one add mul (map chars L ++ map (cons b) (map chars I)) (b :: chars out) (ps ++ data) f) as (r & Hr & Sr & _).
  - rewrite !app_length, !map_length in *. lia.
  - rewrite combine_app by exact LP. apply Forall_app. split.
    + clearbody f. clear -HP FrL Ef. induction HP as [|w a ws ps E F IH]; [constructor|]. cbn [combine]. constructor; [cbn [fst snd]; rewrite Ef; [exact E|apply FrL; left; reflexivity]|].
      apply IH. intros w' Hw'. apply FrL. right. exact Hw'.
    + clearbody f. clear -B2 HD FrI Ef Fb'. revert data HD FrI. induction B2 as [|w t ws ts E _ IH]; intros data HD FrI; inversion HD as [|? x ? xs E1 F1]; subst; cbn [map combine]; [constructor|].
      constructor; [|apply IH; [exact F1|intros w' Hw'; apply FrI; right; exact Hw']]. cbn [fst snd map]. rewrite E1, Ef by (apply FrI; left; reflexivity). reflexivity.
  - constructor; assumption.
  - intros c [ <- |Hc].
    + destruct I as [|s I]; [congruence|]. exists (b :: chars s). split; [apply in_or_app; right; left; reflexivity|left; reflexivity].
    + destruct (HO c Hc) as (s & Hs & Hcs). apply in_app_or in Hs as [Hs|Hs].
      * exists (chars s). split; [apply in_or_app; left; apply in_map; exact Hs|exact Hcs].
      * exists (b :: chars s). split; [apply in_or_app; right; apply in_map, in_map; exact Hs|right; exact Hcs].
  - exists r. split; [exact Hr|]. rewrite Sr. cbn [map]. rewrite Fb', Ef by exact Fo. reflexivity.
Qed.

(** What a successful compile leaves behind. *)
Lemma compile_obj_inv e given train normal sh (o o' : eobj V) : compile_obj e given train normal sh o = (o', Ok tt) ->
  exists full d io, (eo_shape o = None \/ exists s, eo_shape o = Some s /\ shapes_eqb s sh = true) /\ eo_shape o' = Some sh /\ concrete_einsum_str (some_pars (eo_pars o)) e sh = Ok full /\
    dimension_map given (eo_pars o) full sh = Ok d /\ parse full = Ok io /\ draw train normal d (all_but_last (length (leaves sh)) (fst io)) (eo_pars o) = Ok (eo_pars o') /\
    check_pars d (all_but_last (length (leaves sh)) (fst io)) (eo_pars o') = Ok tt.
Proof.
  intros H. unfold compile_obj in H. destruct (match eo_shape o with Some s => negb (shapes_eqb s sh) | None => false end) eqn:E0; [discriminate|]. cbn [eo_pars] in H.
  destruct (let* full := _ in _) as [[[d ld] p]|] eqn:E; [|discriminate]. injection H as <- HC. apply rbind_ok in E as (full & E1 & E). apply rbind_ok in E as (d' & E2 & E).
  apply rbind_ok in E as (io & E3 & E). apply rbind_ok in E as (p' & E4 & E). injection E as -> <- ->. exists full, d, io. split; [|auto 10].
  destruct (eo_shape o) as [s|]; [|auto]. right. exists s. split; [reflexivity|]. destruct (shapes_eqb s sh); [reflexivity|discriminate].
Qed.
Lemma draw_none train normal d ld (p p' : pars V) : draw train normal d ld p = Ok p' -> p' = NoPars -> ld = [].
Proof.
  unfold draw. intros H E. destruct ld as [|w ld]; [reflexivity|]. destruct p as [|a|l]; try congruence. apply rbind_ok in H as (u & _ & H). apply rbind_ok in H as (ss & _ & H).
  destruct ss as [|s [|s' ss]]; congruence.
Qed.

Theorem compiled_runs e given train normal sh (o o' : eobj V) : wf_tree e -> wf_tree sh -> leaves sh <> [] -> compile_obj e given train normal sh o = (o', Ok tt) ->
  exists l i out L I O, notation sh e l i out /\ operands sh l i out L I O /\
    ((length I = 1 \/ hd "" I <> "") -> length I = length (leaves sh) ->
     (forall w, O = Some w -> NoDup (chars w) /\ forall c, occurs c w -> exists s, In s (leading L ++ I) /\ occurs c s) ->
     exists w size, output_of (leading L ++ I) O w /\ Forall2 (fun s a => shp a = map size (chars s)) (leading L) (par_list (eo_pars o')) /\
       Forall2 (fun s t => t = map size (chars s)) I (leaves sh) /\
       forall n data, Forall2 (fun t x => shp x = n :: t) (leaves sh) (leaves data) ->
       exists r, call_obj zero one add mul e o' data = Ok r /\ shp r = n :: map size (chars w)).
Proof.
  intros We Ws Hn H. destruct (compile_obj_inv _ _ _ _ _ _ _ H) as (full & d & io & _ & Es & HC & Hd & HP & Hdr & Hck).
  destruct (concrete_sound_any _ _ _ _ We Ws Hn HC) as (l & i & out & L & I & O & Hany & HN & HO & _ & _ & HS).
  exists l, i, out, L, I, O. split; [exact HN|]. split; [exact HO|]. intros HSo HL HOut. destruct (HS HSo) as (b & w & Hb & Fb & Hw & -> & FW & Hlen).
  pose proof (solid_nonempty I HSo) as IN. assert (Hn0 : length (leaves sh) <> 0) by (destruct (leaves sh); [congruence|discriminate]).
  pose proof HP as HP0. rewrite parse_batched in HP by assumption. injection HP as <-. cbn [fst] in *.
  destruct (cut_last (map chars (leading L)) (map (fun s => b :: chars s) I) (length (leaves sh)) ltac:(rewrite map_length; exact HL) Hn0) as [EA _]. rewrite EA in Hdr, Hck.
  pose proof (pars_fit _ _ _ Hck (draw_none _ _ _ _ _ _ Hdr)) as HF.
  assert (ND : NoDup (chars w) /\ forall c, occurs c w -> exists s, In s (leading L ++ I) /\ occurs c s).
  { destruct O as [w'|]; cbn [output_of] in Hw; [subst w'; apply HOut; reflexivity|]. apply omitted_fits. exact Hw. }
  exists w, (index_in d). split; [exact Hw|]. split.
  { clear -HF. revert HF. generalize (par_list (eo_pars o')). generalize (leading L). intros ls. induction ls as [|s ls IH]; intros ps HF; inversion HF; subst; constructor; auto. }
  assert (HR : forall n data, Forall2 (fun t x => shp x = n :: t) (leaves sh) data -> exists r,
    np_einsum zero one add mul (map chars (leading L) ++ map (cons b) (map chars I)) (b :: chars w) (par_list (eo_pars o') ++ data) = Ok r /\ shp r = n :: map (index_in d) (chars w)).
  { intros n data HD. eapply (run_core (leading L) I w b given (eo_pars o) sh); eauto; apply ND. }
  split.
  { eapply dim_facts; eassumption. }
  intros n data HD. destruct (HR n (leaves data) HD) as (r & Hr & Sr). exists r. split; [|exact Sr].
  unfold call_obj. rewrite Es. unfold einsum_call. rewrite Hany.
  - cbn [rbind]. rewrite HP0. cbn [rbind fst snd]. rewrite chars_cons. exact Hr.
  - intros Ep EL. rewrite EL in HF. cbn [leading map] in HF. inversion HF as [E0|]. destruct (eo_pars o') as [|a|[|a l0]]; cbn in *; discriminate.
Qed.
End Run.

(** * Compiling again *)
Lemma list_eqb_refl l : list_eqb l l = true.
Proof. unfold list_eqb. destruct (list_eq_dec Nat.eq_dec l l); [reflexivity|congruence]. Qed.
Lemma shapes_eqb_refl s : wf_tree s -> shapes_eqb s s = true.
Proof. intros W. unfold shapes_eqb. apply teq_eqb; [exact list_eqb_refl|exact W|exact W|apply teq_refl]. Qed.
Section Again.
Context {V : Type} (zero : V) (add mul : V -> V -> V).
Lemma bind_again d w : (forall c, In c w -> size_of d c <> None) -> bind_operand d (w, map (index_in d) w) = Ok d.
Proof.
  intros H. unfold bind_operand. cbn [fst snd]. rewrite map_length, Nat.eqb_refl. induction w as [|c w IH]; [reflexivity|]. cbn [map combine rfold]. unfold bind_size at 1. cbn [fst snd].
  unfold index_in at 1. destruct (size_of d c) as [k|] eqn:E; [|exfalso; exact (H c (or_introl eq_refl) E)]. rewrite Nat.eqb_refl. cbn [rbind]. apply IH. intros c' Hc'. apply H. right. exact Hc'.
Qed.
Theorem compile_again e given train train' normal normal' sh (o o' : eobj V) :
  wf_tree e -> wf_tree sh -> leaves sh <> [] -> compile_obj e given train normal sh o = (o', Ok tt) -> length (par_list (eo_pars o')) <= 1 ->
  exists l i out L I O, notation sh e l i out /\ operands sh l i out L I O /\
    ((length I = 1 \/ hd "" I <> "") -> length I = length (leaves sh) -> compile_obj e given train' normal' sh o' = (o', Ok tt)).
Proof.
  intros Wt We Hn H H1. destruct (compile_obj_inv _ _ _ _ _ _ _ H) as (full & d & io & _ & Es & HC & Hd & HP & Hdr & Hck).
  destruct (concrete_sound_any _ _ _ _ Wt We Hn HC) as (l & i & out & L & I & O & Hany & HN & HO & _ & _ & HS).
  exists l, i, out, L, I, O. split; [exact HN|]. split; [exact HO|]. intros HSo HL. destruct (HS HSo) as (b & w & Hb & Fb & Hw & -> & FW & Hlen).
  pose proof (solid_nonempty I HSo) as IN. assert (Hn0 : length (leaves sh) <> 0) by (destruct (leaves sh); [congruence|discriminate]).
  pose proof HP as HP0. rewrite parse_batched in HP by assumption. injection HP as <-. cbn [fst] in *.
  destruct (cut_last (map chars (leading L)) (map (fun s => b :: chars s) I) (length (leaves sh)) ltac:(rewrite map_length; exact HL) Hn0) as [EA _]. rewrite EA in Hdr, Hck.
  assert (HF : Forall2 (fun w a => shp a = map (index_in d) w) (map chars (leading L)) (par_list (eo_pars o'))).
  { exact (pars_fit zero add mul _ _ _ Hck (draw_none _ _ _ _ _ _ Hdr)). }
  unfold compile_obj. rewrite Es, (shapes_eqb_refl sh We). cbn [negb eo_pars].
  rewrite Hany; [cbn [rbind]|].
  2: { intros Ep EL. rewrite EL in HF. cbn [leading map] in HF. inversion HF as [E0|]. destruct (eo_pars o') as [|a|[|a q0]]; cbn in *; discriminate. }
  assert (Hd' : dimension_map given (eo_pars o') (batched (leading L) I w b) sh = Ok d).
  { destruct (eo_pars o') as [|a|[|a q0]] eqn:Ep'.
    - unfold draw in Hdr. destruct (map chars (leading L)); [congruence|]. destruct (eo_pars o) as [|a|q0]; [|congruence..]. apply rbind_ok in Hdr as (u & _ & Hdr). apply rbind_ok in Hdr as (ss & _ & Hdr). destruct ss as [|? [|? ?]]; discriminate.
    - destruct (eo_pars o) as [|a0|q0] eqn:Ep.
      + cbn [par_list] in HF. inversion HF as [|x a' xs l' Hx Hf E1 E2]; subst. inversion Hf; subst.
        pose proof Hd as Hd0. unfold dimension_map in Hd. rewrite HP0 in Hd. cbn [rbind] in Hd. unfold dimension_map. rewrite HP0. cbn [rbind].
        assert (EW : map (without b) (map chars (leading L) ++ map (fun s => b :: chars s) I) = map chars (leading L) ++ map chars I).
        { rewrite map_app. f_equal; [apply map_id_in; intros y Hy; apply without_fresh; apply in_map_iff in Hy as (s & <- & Hs); apply (Fb s); right; apply in_or_app; left; exact Hs|].
          rewrite map_map. apply map_ext_in. intros s Hs. apply without_cons. apply (Fb s). right. apply in_or_app. right. exact Hs. }
        rewrite EW in *. destruct (cut_last (map chars (leading L)) (map chars I) (length (leaves sh)) ltac:(rewrite map_length; exact HL) Hn0) as [EA' EL]. rewrite EA', EL in *.
        apply rbind_ok in Hd as (d1 & D1 & Hd). cbn [rbind] in Hd. rewrite D1. cbn [rbind]. destruct (forallb _ _) eqn:Ef in Hd; [|discriminate]. injection Hd as ->.
        rewrite <- E1 in *. cbn [length Nat.eqb combine rfold]. rewrite Hx, bind_again; [cbn [rbind]; rewrite Ef; reflexivity|].
        intros c Hc E0. rewrite forallb_forall in Ef. specialize (Ef c). rewrite E0 in Ef. assert (false = true); [|discriminate]. apply Ef. apply filter_In. split.
        * apply in_or_app. left. cbn [app concat]. apply in_or_app. left. exact Hc.
        * assert (Hx' : In x (map chars (leading L))) by (rewrite <- E1; left; reflexivity). apply in_map_iff in Hx' as (s & <- & Hs).
          destruct (Ascii.eqb_spec c b) as [ -> |]; [|reflexivity]. exfalso. apply (Fb s); [right; apply in_or_app; left; exact Hs|exact Hc].
      + unfold draw in Hdr. destruct (map chars (leading L)); injection Hdr as <-; exact Hd.
      + unfold draw in Hdr. destruct (map chars (leading L)); discriminate.
    - assert (Ep : eo_pars o = ManyPars []).
      { unfold draw in Hdr. destruct (map chars (leading L)); [congruence|]. destruct (eo_pars o) as [|a|q0]; [|congruence..]. apply rbind_ok in Hdr as (u & _ & Hdr). apply rbind_ok in Hdr as (ss & Hss & Hdr).
        destruct ss as [|? [|? ?]]; try discriminate. apply rmapM_ok in Hss. inversion Hss. }
      rewrite Ep in Hd. exact Hd.
    - assert (Ep : exists x, eo_pars o = ManyPars (a :: x) \/ length (a :: q0) >= 2).
      { unfold draw in Hdr. destruct (map chars (leading L)); [exists q0; left; congruence|]. destruct (eo_pars o) as [|a'|q']; [|discriminate|exists q0; left; congruence]. apply rbind_ok in Hdr as (u & _ & Hdr). apply rbind_ok in Hdr as (ss & Hss & Hdr).
        destruct ss as [|? [|? ?]]; try discriminate. injection Hdr as <- <-. exists []. right. cbn. lia. }
      destruct Ep as (x & [Ep|Ep]); [|cbn [par_list] in H1; lia]. rewrite Ep in Hd. unfold dimension_map in Hd. rewrite HP0 in Hd. cbn [rbind] in Hd. apply rbind_ok in Hd as (? & _ & Hd). discriminate. }
  rewrite Hd'. cbn [rbind]. rewrite HP0. cbn [rbind fst]. rewrite EA.
  assert (Hdr' : draw train' normal' d (map chars (leading L)) (eo_pars o') = Ok (eo_pars o')).
  { unfold draw. destruct (map chars (leading L)) as [|x xs] eqn:El; [reflexivity|]. destruct (eo_pars o') as [|a|q0] eqn:Ep; [|reflexivity..]. discriminate (draw_none _ _ _ _ _ _ Hdr eq_refl). }
  rewrite Hdr'. cbn [rbind]. rewrite Hck. destruct o' as [s p]. cbn in *. rewrite Es. reflexivity.
Qed.
End Again.
