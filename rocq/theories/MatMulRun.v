(** Compiled MatMul modules can be called and give the requested shape. *)
From Coq Require Import Permutation Sorted.
From Verif Require Import Base BaseLemmas TreeUtil TreeSpec TreeProofs MutableProofs NonSeqSpec NonSeqProofs Seq SerialSpec SeqProofs TrainArgs TrainArgsProofs NdArray OneHot OneHotProofs ScalerProofs ReshapeProofs ReshapeMain Einsum EinsumSpec EinsumProofs EinsumMain EinsumCompute EinsumBatch MatMul MatMulSpec MatMulCore PathOrder MatMulMain MatMulFinal EinsumObj EinsumRun.
Local Open Scope string_scope.
Local Open Scope list_scope.
Local Open Scope nat_scope.

Section Run.
Context {V : Type} (zero one : V) (add mul : V -> V -> V).

Lemma order_setup (m : matmul V) sh l q perm : wf_tree sh -> leaves sh <> [] ->
  (forall ps, mm_order m = Some ps -> named_dicts sh /\ forall q, In q ps -> q <> double_sep m -> full_path (mm_sep m) q) ->
  slots m sh = Ok l -> param_slot m l = Ok q -> operand_order m q (length l) = Ok perm ->
  length l = length (leaves sh) + (if has_par m then 1 else 0) /\ Permutation perm (seq 0 (length l)) /\
  exists tail, perm = (match q with Some (i, _) => [i] | None => [] end) ++ tail /\ Forall2 (fun i s => nth_error l i = Some (Some s)) tail (leaves sh).
Proof.
  intros Wsh Hne Hord E2 E3 E6. pose proof (param_slot_ok _ _ _ E3) as Q. pose proof E2 as S2. unfold slots in S2. pose proof E6 as S6. unfold operand_order in S6.
  destruct (mm_order m) as [ps|] eqn:Eo.
  - destruct (Hord ps eq_refl) as [Hnamed Hfull]. clear Hord.
    apply rbind_ok in S2 as (u & Hd & S2). apply require_ok, distinct_nodup in Hd. apply rbind_ok in S2 as (l0 & Hl & S2).
    apply rbind_ok in S2 as (u' & Hc & S2). injection S2 as ->. apply require_ok, Nat.eqb_eq in Hc.
    apply rbind_ok in S6 as (t & Ht & S6). injection S6 as <-. apply rmapM_ok in Hl.
    assert (FL : Forall2 (fun p o => (o = None <-> p = double_sep m) /\ (forall s, o = Some s -> walk sh (path_keys (mm_sep m) p) = Some (Leaf s))) ps l).
    { eapply F2_impl'; [|exact Hl]. intros p0 o Hp. cbv beta in Hp. destruct (String.eqb_spec p0 (double_sep m)) as [Ep|Ep].
      - injection Hp as <-. split; [tauto|discriminate].
      - apply rbind_ok in Hp as ([u0 rest] & Hg & Hp). cbn [fst] in Hp. destruct u0 as [s| | | |]; try discriminate. injection Hp as <-. split; [split; [discriminate|congruence]|].
        intros s' E. injection E as <-. apply (getitem_full_walk (mm_sep m) sh p0 (Leaf s)). rewrite Hg. f_equal. f_equal.
        rewrite getitem_split in Hg. destruct (getp false sh (split (mm_sep m) p0)) as [[u0 r0]|] eqn:Eg; [|discriminate]. apply getp_false_rem in Eg. subst r0. cbn in Hg. injection Hg as _ <-. reflexivity. }
    assert (FN : Forall2 (fun p o => o = None <-> p = double_sep m) ps l) by (eapply F2_impl'; [|exact FL]; cbv beta; tauto).
    pose proof (places_slots m ps l FN) as Lpl. pose proof (F2_len _ _ _ FN) as Lps.
    assert (PL : Permutation (leaves t) (map snd (places m ps)) /\
        Forall2 (fun i y => exists p, nth_error ps i = Some p /\ p <> double_sep m /\ walk sh (path_keys (mm_sep m) p) = Some (Leaf y)) (leaves t) (leaves sh)).
    { assert (Hlead : Forall (leads (mm_sep m) sh) (map fst (places m ps))).
      { apply Forall_forall. intros p0 Hp0. apply in_map_iff in Hp0 as ([p1 i] & E & Hp). cbn in E. subst p1. apply in_places in Hp as [Hp Hne'].
        pose proof (Hfull p0 (nth_error_In _ _ Hp) Hne') as Hfp. split; [intros ->; apply Hfp; reflexivity|].
        pose proof (F2_nth _ _ _ i FL) as G. rewrite Hp in G. destruct (nth_error l i) as [o|] eqn:Eoi; [|destruct G]. destruct G as (_ & G1 & G2).
        destruct o as [s|]; [|exfalso; apply Hne', G1; reflexivity]. specialize (G2 s eq_refl). exists s. rewrite <- path_keys_full by exact Hfp. exact G2. }
      unfold place_tree in Ht.
      replace (map (fun pi => Leaf (snd pi)) (places m ps)) with (map (@Leaf nat) (map snd (places m ps))) in Ht by (rewrite map_map; reflexivity).
      destruct (placed (mm_sep m) (map fst (places m ps)) (map snd (places m ps)) t sh) as [P1 P2].
      - exact Hnamed.
      - exact Wsh.
      - apply (numbered_nodup (fun pi => negb (String.eqb (fst pi) (double_sep m))) ps 0).
      - intros E. apply Hne. destruct (places m ps); [|discriminate]. cbn in Lpl. destruct (leaves sh); [reflexivity|]. cbn in Hc. lia.
      - exact Hlead.
      - rewrite !map_length. reflexivity.
      - rewrite map_length. lia.
      - exact Ht.
      - split; [exact P1|]. eapply F2_impl'; [|exact P2]. intros i y (k & p0 & K1 & K2 & K3). 
        rewrite nth_error_map in K1, K2. destruct (nth_error (places m ps) k) as [[p1 i1]|] eqn:Ek; [|discriminate]. cbn in K1, K2. injection K1 as ->. injection K2 as ->.
        apply nth_error_In, in_places in Ek as [Ek1 Ek2]. exists p0. split; [exact Ek1|]. split; [exact Ek2|].
        rewrite path_keys_full; [exact K3|]. apply Hfull; [eapply nth_error_In; exact Ek1|exact Ek2]. }
    pose proof (order_perm m ps l (leaves t) Hd FN (proj1 PL)) as OP.
    assert (Hperm : Permutation (match q with Some (i, _) => [i] | None => [] end ++ leaves t) (seq 0 (length l))).
    { destruct q as [[i s]|]; [destruct Q as (_ & Qi & _)|destruct Q as [_ Qi]]; rewrite Qi in OP; exact OP. }
    split; [|split; [exact Hperm|]].
    + pose proof (Permutation_length Hperm) as L1. rewrite seq_length, app_length in L1. pose proof (Permutation_length (proj1 PL)) as L2. rewrite map_length in L2.
      destruct q as [[i s]|]; [destruct Q as (Qh & _)|destruct Q as [Qh _]]; rewrite Qh; cbn in L1; lia.
    + exists (leaves t). split; [reflexivity|]. eapply F2_impl'; [|exact (proj2 PL)]. intros i y (p & K1 & K2 & K3). pose proof (F2_nth _ _ _ i FL) as G. rewrite K1 in G.
      destruct (nth_error l i) as [o|]; [|destruct G]. destruct G as (_ & G1 & G2). destruct o as [s|]; [|exfalso; apply K2, G1; reflexivity]. specialize (G2 s eq_refl). congruence.
  - injection S2 as <-. injection S6 as <-. fold (has_par m) in *.
    assert (Hl : length ((if has_par m then [None] else []) ++ map Some (leaves sh)) = length (leaves sh) + (if has_par m then 1 else 0)) by (rewrite app_length, map_length; destruct (has_par m); cbn; lia).
    split; [exact Hl|]. split; [reflexivity|]. rewrite app_length, map_length.
    assert (F : forall k (ss : list (list nat)) pre, length pre = k -> Forall2 (fun i s => nth_error (pre ++ map Some ss) i = Some (Some s)) (seq k (length ss)) ss).
    { intros k ss. revert k. induction ss as [|s ss IH]; intros k pre Hk; [constructor|]. cbn [length seq map]. constructor.
      - rewrite nth_error_app2, Hk, Nat.sub_diag by lia. reflexivity.
      - specialize (IH (S k) (pre ++ [Some s])). rewrite <- app_assoc in IH. cbn [app] in IH. apply IH. rewrite app_length. cbn. lia. }
    destruct q as [[i s]|].
    + destruct Q as (Qh & Qi & _). rewrite Qh in *. cbn in Qi. injection Qi as <-. exists (seq 1 (length (leaves sh))). split; [reflexivity|]. apply (F 1 (leaves sh) [None]). reflexivity.
    + destruct Q as (Qh & _). rewrite Qh in *. exists (seq 0 (length (leaves sh))). split; [reflexivity|]. apply (F 0 (leaves sh) []). reflexivity.
Qed.

(** What compile of the module leaves, with the sizes of the letters. *)
Lemma compile_facts L I given train (o : option (arr V)) normal sh full p :
  length I = length (leaves sh) -> leaves sh <> [] -> Forall (fun t => word t /\ t <> "") (L ++ I) -> (o <> None -> L <> []) ->
  einsum_compile (Leaf (join comma (L ++ I))) given train (pars_of o) normal sh = Ok (full, p) ->
  exists b d, letter b /\ fresh b (default_out L I None :: L ++ I) /\ full = batched L I (default_out L I None) b /\
    dimension_map given (pars_of o) full sh = Ok d /\ draw train normal d (map chars L) (pars_of o) = Ok p /\ check_pars d (map chars L) p = Ok tt.
Proof.
  intros HI Hne FW Ho H. unfold einsum_compile in H. apply rbind_ok in H as (c & HC & H).
  assert (FW' : Forall word (L ++ I)) by (eapply Forall_impl; [|exact FW]; intros t [W _]; exact W).
  assert (HS : solid_first I).
  { right. destruct I as [|t I]; [destruct (leaves sh); [congruence|discriminate]|]. apply Forall_app in FW as [_ FW]. cbn. apply (proj2 (Forall_inv FW)). }
  assert (IN : I <> []) by (apply solid_nonempty; exact HS).
  replace (join comma (L ++ I)) with (written L I None) in HC by (unfold written; apply commas_join).
  apply concrete_text_inv in HC as (b & Hb & Fb & -> & _); [|exact HI|exact HS| |exact FW'|discriminate].
  2: { intros E. apply Ho. destruct o; [discriminate|]. cbn in E. discriminate. }
  assert (FO : Forall word (default_out L I None :: L ++ I)) by (constructor; [apply default_word; [exact FW'|discriminate]|exact FW']).
  apply rbind_ok in H as (d & HD & H). apply rbind_ok in H as (io & HP & H).
  rewrite parse_batched in HP by assumption. injection HP as <-. cbn [fst] in H.
  assert (Hn0 : length (leaves sh) <> 0) by (destruct (leaves sh); [congruence|discriminate]).
  destruct (cut_last (map chars L) (map (fun s => b :: chars s) I) (length (leaves sh)) ltac:(rewrite map_length; exact HI) Hn0) as [EA _]. rewrite EA in H.
  apply rbind_ok in H as (p' & Hp & H). apply rbind_ok in H as ([] & Hck & H). injection H as <- <-. exists b, d. auto 10.
Qed.

(** What the argument output_shape asks for. *)
Definition requested (m : matmul V) (s : list nat) : Prop :=
  match mm_out m with
  | None => True
  | Some (OInt k) => hd_error s = Some k
  | Some (OTup t) => Forall2 (fun o k => forall j, o = Some j -> j = k) t s
  end.

Theorem matmul_accepts (m : matmul V) normal sh full p : wf_tree sh -> leaves sh <> [] ->
  (forall ps, mm_order m = Some ps -> named_dicts sh /\ forall q, In q ps -> q <> double_sep m -> full_path (mm_sep m) q) ->
  matmul_compile m normal sh = Ok (full, p) ->
  exists s, (forall n data, Forall2 (fun t x => shp x = n :: t) (leaves sh) (leaves data) -> exists r, matmul_run zero one add mul m normal sh data = Ok (p, r) /\ shp r = n :: s) /\
    (length (leaves sh) + (if has_par m then 1 else 0) <= 25 -> requested m s).
Proof.
  intros Wsh Hne Hord HC0. pose proof HC0 as HC. unfold matmul_compile in HC. apply rbind_ok in HC as (sd & HSd & HC).
  pose proof HSd as HS'. unfold matmul_subs in HS'. apply rbind_ok in HS' as ([] & H1 & HS'). apply rbind_ok in HS' as (l & H2 & HS'). apply rbind_ok in HS' as (q & H3 & HS').
  apply rbind_ok in HS' as ([] & H4 & HS'). apply rbind_ok in HS' as ([] & Hout & HS'). apply rbind_ok in HS' as (ts & H5 & HS'). apply rbind_ok in HS' as (d0 & Hd0 & HS').
  apply rbind_ok in HS' as (perm & H6 & HS'). apply rbind_ok in HS' as (ts' & H7 & HS'). injection HS' as <-. cbn [fst snd] in HC.
  destruct (terms_ok _ _ _ H5) as [Lts Ets]. assert (Lf : length (fill_slots q l) = length l) by (unfold fill_slots; apply map_length).
  rewrite Lts, Lf in H6. destruct (order_setup m sh l q perm Wsh Hne Hord H2 H3 H6) as (Hlen & HP & tail & Ep & HT).
  pose proof (param_slot_ok _ _ _ H3) as Q.
  apply rmapM_ok in H7.
  assert (F7 : Forall2 (fun i t => nth_error ts i = Some t) perm ts') by (eapply F2_impl'; [|exact H7]; intros i t E; apply at_index_ok; exact E). clear H7.
  assert (Lp : length perm = length l) by (rewrite (Permutation_length HP), seq_length; reflexivity).
  assert (FW : Forall (fun t => word t /\ t <> "") ts').
  { clear -F7 Ets. induction F7 as [|i t perm ts' E F IH]; constructor; [|exact IH]. apply (Ets i t E). }
  rewrite Ep in F7. apply Forall2_app_inv_l in F7 as (L & I & FLd & FI & ->).
  assert (LI : length I = length (leaves sh)) by (rewrite <- (F2_len _ _ _ FI), <- (F2_len _ _ _ HT); reflexivity).
  assert (LLo : mm_par m <> None -> L <> []).
  { intros Ho ->. destruct q as [[i s]|]; [inversion FLd|]. destruct Q as [Qh _]. unfold has_par in Qh. destruct (mm_par m); [|congruence]. rewrite orb_true_r in Qh. discriminate. }
  destruct (compile_facts _ _ _ _ _ _ _ _ _ LI Hne FW LLo HC) as (b & d & Hb & Fb & -> & Hd & Hdr & Hck).
  assert (IN : I <> []) by (intros ->; destruct (leaves sh); [congruence|discriminate]).
  assert (FW' : Forall word (L ++ I)) by (eapply Forall_impl; [|exact FW]; intros t [W _]; exact W).
  assert (FO : Forall word (default_out L I None :: L ++ I)) by (constructor; [apply default_word; [exact FW'|discriminate]|exact FW']).
  destruct (dim_facts zero add mul _ _ _ _ _ _ _ _ Hne IN Hb Fb FO LI Hd) as [HK HSz].
  pose proof (pars_fit zero add mul _ _ _ Hck (draw_none _ _ _ _ _ _ Hdr)) as HF.
  pose proof (omitted_fits _ _ (default_output L I None)) as [ND HO].
  exists (map (index_in d) (chars (default_out L I None))). split.
  { intros n data HD. destruct (run_core zero one add mul L I _ b _ _ sh (par_list p) (leaves data) d n Hne IN Hb Fb FO LI Hd HF ND HO HD) as (r & Hr & Sr).
    exists r. split; [|exact Sr]. unfold matmul_run. rewrite HC0. cbn [rbind fst snd]. rewrite parse_batched by assumption. cbn [rbind fst snd]. rewrite chars_cons, Hr. reflexivity. }
  intros H25.
  (* the sizes of the operands *)
  assert (G : forall i s, nth_error (fill_slots q l) i = Some s -> s = map (index_in d) (cut i s)).
  { intros i s Hi. assert (Hil : i < length l) by (rewrite <- Lf; apply nth_error_Some; congruence).
    assert (Hin : In i perm) by (apply (Permutation_in _ (Permutation_sym HP)), in_seq; lia). rewrite Ep in Hin.
    apply in_app_or in Hin as [Hin|Hin].
    - destruct q as [[i' s']|]; [|destruct Hin]. destruct Hin as [ -> |[]]. destruct Q as (Qh & Qi & Q3 & Q4). pose proof (none_index_first _ _ Qi) as N1.
      unfold fill_slots in Hi. rewrite nth_error_map, N1 in Hi. cbn in Hi. injection Hi as <-. cbn [snd] in *.
      inversion FLd as [|? t0 ? L' E0 F0]; subst. inversion F0; subst. destruct (Ets _ _ E0) as [Ec _]. cbn [Nat.add] in Ec.
      assert (En : nth i (fill_slots (Some (i, s')) l) [] = s'). { apply nth_error_nth. unfold fill_slots. rewrite nth_error_map, N1. reflexivity. } rewrite En in Ec.
      destruct (mm_par m) as [a|] eqn:Ea.
      + cbn [draw map pars_of] in Hdr. injection Hdr as <-. cbn [par_list map] in HF. inversion HF as [|? ? ? ? HF1 _]; subst. rewrite Ec in HF1. rewrite <- (Q4 a eq_refl) in HF1. exact HF1.
      + assert (K : forall c n, size_of d0 c = Some n -> index_in d c = n) by (intros c n E; unfold index_in; rewrite (HK c n E); reflexivity). clear Ec En.
        destruct (Q3 eq_refl) as [L1|L2].
        * destruct s' as [|r [|? ?]]; try discriminate. cbn [param_sizes] in Hd0. apply rbind_ok in Hd0 as (x & Hx & Hd0). cbn in Hd0. injection Hd0 as <-. apply index_char_ch in Hx as [_ ->].
          unfold cut. cbn [length Nat.eqb map]. rewrite (K (ch i) r); [reflexivity|]. cbn [size_of]. rewrite Ascii.eqb_refl. reflexivity.
        * destruct s' as [|r [|c [|? ?]]]; try discriminate. cbn [param_sizes] in Hd0. apply rbind_ok in Hd0 as (x & Hx & Hd0). apply rbind_ok in Hd0 as (y & Hy & Hd0). injection Hd0 as <-.
          apply index_char_ch in Hx as [Hx1 ->]. apply index_char_ch in Hy as [Hy1 ->]. unfold cut. cbn [length Nat.eqb map]. rewrite (K (ch i) r), (K (ch (S i)) c); [reflexivity|..].
          -- cbn [size_of]. rewrite ch_eqb by lia. destruct (Nat.eqb_spec (S i) i); [lia|]. replace (i + 1) with (S i) by lia. rewrite Ascii.eqb_refl. reflexivity.
          -- cbn [size_of]. rewrite Ascii.eqb_refl. reflexivity.
    - apply In_nth_error in Hin as (k & Hk). pose proof (F2_nth _ _ _ k HT) as G1. rewrite Hk in G1. destruct (nth_error (leaves sh) k) as [s'|] eqn:Es'; [|destruct G1]. destruct G1 as [_ G1].
      pose proof (F2_nth _ _ _ k FI) as G2. rewrite Hk in G2. destruct (nth_error I k) as [t|] eqn:Et; [|destruct G2]. destruct G2 as [_ G2].
      pose proof (F2_nth _ _ _ k HSz) as G3. rewrite Et, Es' in G3. destruct G3 as [_ G3].
      unfold fill_slots in Hi. rewrite nth_error_map, G1 in Hi. cbn in Hi. injection Hi as <-. destruct (Ets _ _ G2) as [Ec _]. cbn [Nat.add] in Ec.
      rewrite (nth_error_nth (fill_slots q l) i [] (x := s')) in Ec by (unfold fill_slots; rewrite nth_error_map, G1; reflexivity). rewrite <- Ec. exact G3. }
  assert (FS : Forall (fun s => length s = 1 \/ length s = 2) (fill_slots q l)).
  { apply Forall_forall. intros s Hs. apply In_nth_error in Hs as (i & Hi). rewrite (G i s Hi), map_length. unfold cut. destruct (length s =? 2); auto. }
  assert (Ln : l <> []) by (intros ->; cbn in Hlen; destruct (leaves sh); [congruence|discriminate]).
  destruct (shapes_kind _ FS H4) as (vec & Hvec); [intros E; apply Ln; destruct l; [reflexivity|discriminate]|]. rewrite Lf in Hvec.
  assert (Hlt : forall i, In i perm -> i < length l) by (intros i Hi; apply (Permutation_in _ HP) in Hi; apply in_seq in Hi; lia).
  assert (L1 : 1 <= length l) by (destruct l; [congruence|cbn; lia]).
  assert (EO : chars (default_out L I None) = outl vec (length l)).
  { unfold default_out. rewrite chars_string.
    replace (map chars (L ++ I)) with (map (tm vec (length l)) perm).
    - apply once_outl; [exact L1|unfold last_letter; destruct vec; lia|exact HP].
    - rewrite Ep. eapply F2_map_eq; [|apply Forall2_app; [exact FLd|exact FI]]. intros i t Hi E. cbv beta in E. destruct (Ets i t E) as [Ec _]. rewrite Ec. cbn [Nat.add]. symmetry. apply Hvec. apply Hlt. rewrite Ep. exact Hi. }
  rewrite EO. unfold requested, check_output in *.
  apply rbind_ok in Hout as (first & Hfirst & Hout). apply rbind_ok in Hout as (rows & Hrows & Hout). apply at_index_ok in Hfirst, Hrows.
  pose proof (G 0 first Hfirst) as G0. 
  assert (Erow : rows = index_in d (ch 0)).
  { rewrite G0 in Hrows. unfold cut in Hrows. destruct (length first =? 2); cbn [map nth_error] in Hrows; congruence. }
  assert (Elast : rows :: match last (fill_slots q l) [] with [_; c] => [c] | _ => [] end = map (index_in d) (outl vec (length l))).
  { set (fl := fill_slots q l) in *. assert (Nf : fl <> []) by (intros E; apply Ln; rewrite E in Lf; destruct l; [reflexivity|discriminate]).
    assert (El : nth_error fl (length l - 1) = Some (last fl [])).
    { rewrite <- Lf. clear -Nf. destruct (exists_last Nf) as (x & y & ->). rewrite last_last, app_length. cbn. rewrite Nat.add_sub, nth_error_app2, Nat.sub_diag by lia. reflexivity. }
    pose proof (G _ _ El) as Gl. pose proof (Hvec (length l - 1) ltac:(lia)) as Hv. rewrite (nth_error_nth _ _ [] El) in Hv. rewrite Hv in Gl. unfold tm in Gl.
    replace (S (length l - 1)) with (length l) in Gl by lia. rewrite Nat.eqb_refl, andb_true_r in Gl. unfold outl. subst rows. destruct vec; rewrite Gl; reflexivity. }
  rewrite Elast in Hout. destruct (mm_out m) as [[k|t]|]; [| |exact Logic.I].
  - apply require_ok, Nat.eqb_eq in Hout. rewrite <- Elast. cbn. congruence.
  - apply rbind_ok in Hout as ([] & HL1 & HL2). apply require_ok in HL1, HL2. apply Nat.eqb_eq in HL1. clear -HL1 HL2. revert HL1 HL2. generalize (map (index_in d) (outl vec (length l))).
    induction t as [|o t IH]; intros [|k s] HL1 HL2; try discriminate; constructor.
    + cbn in HL2. apply andb_true_iff in HL2 as [E _]. intros j ->. apply Nat.eqb_eq. exact E.
    + apply IH; [cbn in HL1; lia|]. cbn in HL2. apply andb_true_iff in HL2 as [_ E]. exact E.
Qed.
End Run.
