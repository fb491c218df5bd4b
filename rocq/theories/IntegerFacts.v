(** Parameters of the integer chip over BN254, limbs, and the range-checked limb
    assignments. *)
From Coq Require Import ZArith Arith Lia List Bool Ring Field Znumtheory.
From Verif Require Import Util Algebra PField Gate GateProofs GateOps RangeProofs Integer Bn254.
Import ListNotations.
Local Open Scope fld_scope.

Lemma range_at_snd (N : PF) (w : asg N) common lead ps k ms i (P : aval N -> Prop) :
  (forall r, let ps := resize VAR_COLUMNS pair_empty ps in
             copied N w r 0 ps ->
             k + dot w r 0 (map snd ps) + muls w r 0 (resize MUL_COLUMNS 0 ms) = 0 ->
             (forall i, (i < 4)%nat -> (toZ (w (r, i)) < 2 ^ Z.of_nat common)%Z) ->
             (forall l, lead = Some l -> (toZ (w (r, 0%nat)) < 2 ^ Z.of_nat l)%Z) ->
             forall a, nth_error (cells_of r 0 ps) i = Some a -> P a) ->
  snd_ w (bind (one_line_in_range common lead ps k ms 0) (fun cells => at_ cells i)) P.
Proof.
  intro H. eapply snd_bind.
  { apply range_snd with (P := fun cells => forall a, nth_error cells i = Some a -> P a).
    intros r ps' H1 H2 H3 H4. exact (H r H1 H2 H3 H4). }
  intro cells. apply snd_at. auto.
Qed.
Lemma range_at_cpl (N : PF) (c : ctx N) common lead ps k ms i s kk :
  (length ps <= VAR_COLUMNS)%nat -> (length ms <= MUL_COLUMNS)%nat -> in_valid N c ps -> row_ok N ps k ms ->
  let vs := map (fun p => vs_val (fst p)) (resize VAR_COLUMNS pair_empty ps) in
  (forall i, (i < 4)%nat -> (toZ (nth i vs (@f0 N)) < 2 ^ Z.of_nat common)%Z) ->
  (forall l, lead = Some l -> (toZ (nth 0%nat vs (@f0 N)) < 2 ^ Z.of_nat l)%Z) ->
  nth_error ps i = Some (s, kk) ->
  cpl c (bind (one_line_in_range common lead ps k ms 0) (fun cells => at_ cells i)) (fun a c' => valid c' a /\ av_val a = vs_val s).
Proof.
  intros H1 H2 Hv He vs Hc Hl Hn. eapply cpl_bind; [now apply range_cpl|].
  intros cells c' _ _ _ [-> Hcc].
  assert (Hi : nth_error (resize VAR_COLUMNS pair_empty ps) i = Some (s, kk)).
  { rewrite resize_small by assumption. rewrite nth_error_app1; [assumption|].
    apply nth_error_Some. congruence. }
  assert (Hcell : forall (l : list (vschema N * N)) r i j, nth_error l j = Some (s, kk) ->
            nth_error (cells_of r i l) j = Some (AV (r, (i + j)%nat) (vs_val s))).
  { induction l as [|[s' k'] l IH]; intros r i0 [|j] Hj; cbn in *; try discriminate.
    - injection Hj as -> ->. now rewrite Nat.add_0_r.
    - rewrite (IH _ _ _ Hj). do 3 f_equal. lia. }
  specialize (Hcell _ (offset c) 0%nat i Hi). eapply cpl_at; [exact Hcell|].
  split; [|reflexivity]. apply (proj1 (Forall_forall _ _) Hcc). eapply nth_error_In; eauto.
Qed.

Section Facts.
  Variables N W : PF.
  Hypothesis HN : pf_n N = fr_mod.
  Hypothesis HW : pf_n W = fq_mod.
  Add Field NF : (f_th N).
  Implicit Types (w : asg N) (c : ctx N).
  Local Open Scope Z_scope.

  (** *** parameters *)
  Lemma w_ceil_bits_eq : w_ceil_bits W = 254.
  Proof. unfold w_ceil_bits, w_modulus. rewrite HW. reflexivity. Qed.
  Lemma n_floor_bits_eq : n_floor_bits N = 253.
  Proof. unfold n_floor_bits, n_modulus. rewrite HN. reflexivity. Qed.
  Lemma d_bits_eq : d_bits N W = 271.
  Proof. unfold d_bits, w_modulus, n_modulus. rewrite HN, HW. vm_compute. reflexivity. Qed.
  Lemma w_table_eq : w_table W = 16%nat.
  Proof. unfold w_table, w_modulus. rewrite HW. reflexivity. Qed.
  Lemma n_table_eq : n_table N = 15%nat.
  Proof. unfold n_table, n_modulus. rewrite HN. reflexivity. Qed.
  Lemma d_table_eq : d_table N W = 16%nat.
  Proof. unfold d_table. rewrite d_bits_eq. reflexivity. Qed.
  (** utils.rs:55, the assertion of [get_d_range_bits_in_mul] *)
  Lemma d_bits_assert :
    2 ^ d_bits N W * w_modulus W + w_modulus W <= Z.lcm integer_modulus (n_modulus N).
  Proof. rewrite d_bits_eq. unfold w_modulus, n_modulus. rewrite HN, HW. vm_compute. discriminate. Qed.

  (** *** from the field to the integers *)
  Lemma lift_eq0 z : @ofZ N z = f0 -> (fr_mod | z).
  Proof.
    intro H. rewrite <- HN. replace z with (z - 0) by lia. apply ofZ_cong. now rewrite ofZ_0.
  Qed.
  (** a multiple of n smaller than n is 0 *)
  Lemma small_multiple m z : 0 < m -> (m | z) -> - m < z < m -> z = 0.
  Proof. intros Hm [q ->] H. assert (q = 0) as -> by nia. reflexivity. Qed.
  Lemma lift_small z : @ofZ N z = f0 -> - fr_mod < z < fr_mod -> z = 0.
  Proof. intros H Hz. apply (small_multiple fr_mod); [reflexivity|now apply lift_eq0|exact Hz]. Qed.
  Lemma toZ_rng (x : N) : 0 <= toZ x < fr_mod.
  Proof. rewrite <- HN. apply toZ_range. Qed.

  Lemma limb_exp_eq i : @limb_exp N i = ofZ (2 ^ (68 * Z.of_nat i)).
  Proof.
    unfold limb_exp. induction i as [|i IH].
    - cbn [fpow]. symmetry. apply ofZ_1.
    - cbn [fpow]. rewrite IH. unfold limb_modulus_on_n, limb_modulus, LIMB_WIDTH.
      rewrite <- ofZ_mul. f_equal. rewrite <- Z.pow_add_r by lia. f_equal. lia.
  Qed.

  (** *** limbs of a big integer *)
  Lemma bn_limb_sum v : 0 <= v ->
    v = bn_limb 0 v + bn_limb 1 v * 2 ^ 68 + bn_limb 2 v * 2 ^ 136 + bn_limb 3 v * 2 ^ 204.
  Proof.
    intro Hv. unfold bn_limb, limb_modulus, LIMB_WIDTH. rewrite !Z.shiftr_div_pow2 by lia.
    rewrite !Z.div_div by lia. replace (2 ^ 68 * 2 ^ 68) with (2 ^ 136) by lia.
    replace (2 ^ 136 * 2 ^ 68) with (2 ^ 204) by lia.
    pose proof (Z.div_mod v (2 ^ 68) ltac:(lia)) as H0.
    pose proof (Z.div_mod (v / 2 ^ 68) (2 ^ 68) ltac:(lia)) as H1.
    pose proof (Z.div_mod (v / 2 ^ 136) (2 ^ 68) ltac:(lia)) as H2.
    rewrite Z.div_div in H1 by lia. replace (2 ^ 68 * 2 ^ 68) with (2 ^ 136) in H1 by lia.
    rewrite Z.div_div in H2 by lia. replace (2 ^ 136 * 2 ^ 68) with (2 ^ 204) in H2 by lia.
    lia.
  Qed.
  Lemma bn_limb_lo v i : (i < 3)%nat -> 0 <= bn_limb i v < 2 ^ 68.
  Proof.
    intro Hi. unfold bn_limb, limb_modulus, LIMB_WIDTH.
    destruct i as [|[|[|i]]]; try lia; apply Z.mod_pos_bound; lia.
  Qed.
  Lemma bn_limb_hi v k : 0 <= k -> 0 <= v < 2 ^ (204 + k) -> 0 <= bn_limb 3 v < 2 ^ k.
  Proof.
    intros Hk Hv. unfold bn_limb, LIMB_WIDTH. rewrite !Z.shiftr_div_pow2 by lia. rewrite !Z.div_div by lia.
    rewrite <- !Z.pow_add_r by lia. replace (68 + 68 + 68) with 204 by lia. split.
    - apply Z.div_pos; lia.
    - apply Z.div_lt_upper_bound; [lia|]. now rewrite <- Z.pow_add_r by lia.
  Qed.

  (** *** chunks of 17 bits *)
  Definition ck (v i : Z) : Z := Z.land (Z.shiftr v i) (2 ^ 17 - 1).
  Lemma ck_mod v i : 0 <= i -> ck v i = (v / 2 ^ i) mod 2 ^ 17.
  Proof.
    intro Hi. unfold ck. change (2 ^ 17 - 1) with (Z.ones 17). rewrite Z.land_ones by lia.
    now rewrite Z.shiftr_div_pow2.
  Qed.
  Lemma ck_range v i : 0 <= i -> 0 <= ck v i < 2 ^ 17.
  Proof. intro. rewrite ck_mod by assumption. apply Z.mod_pos_bound. lia. Qed.
  Lemma toZ_ck v i : 0 <= i -> toZ (@ofZ N (ck v i)) = ck v i.
  Proof.
    intro Hi. pose proof (ck_range v i Hi). apply toZ_small. rewrite HN.
    assert (2 ^ 17 < fr_mod) by reflexivity. lia.
  Qed.

  Definition ch (v i : Z) : vschema N * N := (VU (ofZ (ck v i)), ofZ (2 ^ i)).
  Lemma schema4 v : schema_of (decompose_bn v 4) = [ch v 51; ch v 34; ch v 17; ch v 0].
  Proof. reflexivity. Qed.
  Lemma schema3 v : schema_of (decompose_bn v 3) = [ch v 34; ch v 17; ch v 0].
  Proof. reflexivity. Qed.
  Lemma pow_split v i j : 0 <= i -> 0 <= j -> v / 2 ^ i / 2 ^ j = v / 2 ^ (i + j).
  Proof. intros. rewrite Z.div_div by lia. now rewrite <- Z.pow_add_r. Qed.
  Lemma ck_sum3 v : 0 <= v < 2 ^ 51 -> v = ck v 34 * 2 ^ 34 + ck v 17 * 2 ^ 17 + ck v 0.
  Proof.
    intro Hv. rewrite !ck_mod by lia. change (2 ^ 0) with 1. rewrite Z.div_1_r.
    pose proof (Z.div_mod v (2 ^ 17) ltac:(lia)) as H0.
    pose proof (Z.div_mod (v / 2 ^ 17) (2 ^ 17) ltac:(lia)) as H1.
    rewrite (pow_split v 17 17) in H1 by lia. change (17 + 17) with 34 in H1.
    rewrite (Z.mod_small (v / 2 ^ 34)); [lia|].
    split; [apply Z.div_pos; lia|apply Z.div_lt_upper_bound; lia].
  Qed.
  Lemma ck_sum4 v : 0 <= v < 2 ^ 68 -> v = ck v 51 * 2 ^ 51 + ck v 34 * 2 ^ 34 + ck v 17 * 2 ^ 17 + ck v 0.
  Proof.
    intro Hv. rewrite !ck_mod by lia. change (2 ^ 0) with 1. rewrite Z.div_1_r.
    pose proof (Z.div_mod v (2 ^ 17) ltac:(lia)) as H0.
    pose proof (Z.div_mod (v / 2 ^ 17) (2 ^ 17) ltac:(lia)) as H1.
    pose proof (Z.div_mod (v / 2 ^ 34) (2 ^ 17) ltac:(lia)) as H2.
    rewrite (pow_split v 17 17) in H1 by lia. change (17 + 17) with 34 in H1.
    rewrite (pow_split v 34 17) in H2 by lia. change (34 + 17) with 51 in H2.
    rewrite (Z.mod_small (v / 2 ^ 51)); [lia|].
    split; [apply Z.div_pos; lia|apply Z.div_lt_upper_bound; lia].
  Qed.
  Lemma ck_top v i k : 0 <= i -> 0 <= k <= 17 -> 0 <= v < 2 ^ (i + k) -> ck v i < 2 ^ k.
  Proof.
    intros Hi Hk Hv. rewrite ck_mod by lia.
    assert (v / 2 ^ i < 2 ^ k) by (apply Z.div_lt_upper_bound; [lia|]; now rewrite <- Z.pow_add_r by lia).
    assert (0 <= v / 2 ^ i) by (apply Z.div_pos; lia).
    pose proof (Z.mod_le (v / 2 ^ i) (2 ^ 17) ltac:(lia) ltac:(lia)). lia.
  Qed.

  (** *** range-checked limbs *)
  Definition zv w (a : aval N) : Z := toZ (w (av_cell a)).

  Lemma nonleading_snd w n : snd_ w (assign_nonleading_limb n) (fun r => 0 <= zv w r < 2 ^ 68).
  Proof.
    unfold assign_nonleading_limb. rewrite schema4. apply range_at_snd.
    intro r. cbn -[pf fadd fmul fopp f0 f1 fsub Z.pow ofZ]. intros _ Hrow Hr _ a [= <-]. unfold zv. cbn [av_cell].
    pose proof (Hr 0%nat ltac:(lia)) as H0. pose proof (Hr 1%nat ltac:(lia)) as H1.
    pose proof (Hr 2%nat ltac:(lia)) as H2. pose proof (Hr 3%nat ltac:(lia)) as H3. clear Hr.
    change (Z.of_nat COMMON_RANGE_BITS) with 17 in *.
    pose proof (toZ_rng (w (r, 0%nat))). pose proof (toZ_rng (w (r, 1%nat))).
    pose proof (toZ_rng (w (r, 2%nat))). pose proof (toZ_rng (w (r, 3%nat))).
    assert (E : toZ (w (r, 0%nat)) * 2 ^ 51 + toZ (w (r, 1%nat)) * 2 ^ 34 + toZ (w (r, 2%nat)) * 2 ^ 17 +
                toZ (w (r, 3%nat)) - toZ (w (r, 4%nat)) = 0).
    { pose proof (toZ_rng (w (r, 4%nat))). apply lift_small.
      - rewrite ofZ_sub, !ofZ_add, !ofZ_mul, !ofZ_toZ. refine (eq_trans _ Hrow).
        change (ofZ (2 ^ 0)) with (@ofZ N 1). rewrite ofZ_1. ring.
      - unfold fr_mod in *. lia. }
    lia.
  Qed.

  Definition lead3 (t : nat) (n : N) : B N (aval N) :=
    bind (one_line_in_range 17 (Some t) [ch (toZ n) 34; ch (toZ n) 17; ch (toZ n) 0; pair_empty; (VU n, fopp f1)] f0 [] f0)
         (fun cells => at_ cells 4).
  Lemma w_leading_eq n : assign_w_ceil_leading_limb N W n = (guard true ;;; lead3 16 n).
  Proof. unfold assign_w_ceil_leading_limb. rewrite w_ceil_bits_eq, w_table_eq. reflexivity. Qed.
  Lemma n_leading_eq n : assign_n_floor_leading_limb N n = (guard true ;;; lead3 15 n).
  Proof. unfold assign_n_floor_leading_limb. rewrite n_floor_bits_eq, n_table_eq. reflexivity. Qed.
  Lemma lead3_snd w t n : snd_ w (lead3 t n) (fun r => 0 <= zv w r < 2 ^ Z.of_nat t * 2 ^ 34).
  Proof.
    unfold lead3. apply range_at_snd.
    intro r. cbn -[pf fadd fmul fopp f0 f1 fsub Z.pow ofZ]. intros _ Hrow Hr Hl a [= <-]. unfold zv. cbn [av_cell].
    specialize (Hl t eq_refl).
    pose proof (Hr 0%nat ltac:(lia)) as H0. pose proof (Hr 1%nat ltac:(lia)) as H1.
    pose proof (Hr 2%nat ltac:(lia)) as H2. clear Hr.
    pose proof (toZ_rng (w (r, 0%nat))). pose proof (toZ_rng (w (r, 1%nat))). pose proof (toZ_rng (w (r, 2%nat))).
    assert (E : toZ (w (r, 0%nat)) * 2 ^ 34 + toZ (w (r, 1%nat)) * 2 ^ 17 + toZ (w (r, 2%nat)) - toZ (w (r, 4%nat)) = 0).
    { pose proof (toZ_rng (w (r, 4%nat))). apply lift_small.
      - rewrite ofZ_sub, !ofZ_add, !ofZ_mul, !ofZ_toZ. refine (eq_trans _ Hrow).
        change (ofZ (2 ^ 0)) with (@ofZ N 1). rewrite ofZ_1. ring.
      - unfold fr_mod in *. lia. }
    lia.
  Qed.
  Lemma w_leading_snd w n : snd_ w (assign_w_ceil_leading_limb N W n) (fun r => 0 <= zv w r < 2 ^ 50).
  Proof.
    rewrite w_leading_eq. eapply snd_bind; [now apply snd_guard with (P := fun _ => True)|]. intros [].
    eapply snd_conseq; [apply lead3_snd|]. intros r H _. exact H.
  Qed.
  Lemma n_leading_snd w n : snd_ w (assign_n_floor_leading_limb N n) (fun r => 0 <= zv w r < 2 ^ 49).
  Proof.
    rewrite n_leading_eq. eapply snd_bind; [now apply snd_guard with (P := fun _ => True)|]. intros [].
    eapply snd_conseq; [apply lead3_snd|]. intros r H _. exact H.
  Qed.
  Definition lead4 (t : nat) (n : N) : B N (aval N) :=
    bind (one_line_in_range 17 (Some t) [ch (toZ n) 51; ch (toZ n) 34; ch (toZ n) 17; ch (toZ n) 0; (VU n, fopp f1)] f0 [] f0)
         (fun cells => at_ cells 4).
  Lemma d_leading_eq n : assign_d_leading_limb N W n = lead4 16 n.
  Proof. unfold assign_d_leading_limb. rewrite d_table_eq, d_bits_eq. reflexivity. Qed.
  Lemma lead4_snd w t n : snd_ w (lead4 t n) (fun r => 0 <= zv w r < 2 ^ Z.of_nat t * 2 ^ 51).
  Proof.
    unfold lead4. apply range_at_snd.
    intro r. cbn -[pf fadd fmul fopp f0 f1 fsub Z.pow ofZ]. intros _ Hrow Hr Hl a [= <-]. unfold zv. cbn [av_cell].
    specialize (Hl t eq_refl).
    pose proof (Hr 0%nat ltac:(lia)) as H0. pose proof (Hr 1%nat ltac:(lia)) as H1.
    pose proof (Hr 2%nat ltac:(lia)) as H2. pose proof (Hr 3%nat ltac:(lia)) as H3. clear Hr.
    pose proof (toZ_rng (w (r, 0%nat))). pose proof (toZ_rng (w (r, 1%nat))). pose proof (toZ_rng (w (r, 2%nat))).
    pose proof (toZ_rng (w (r, 3%nat))).
    assert (E : toZ (w (r, 0%nat)) * 2 ^ 51 + toZ (w (r, 1%nat)) * 2 ^ 34 + toZ (w (r, 2%nat)) * 2 ^ 17 + toZ (w (r, 3%nat))
                - toZ (w (r, 4%nat)) = 0).
    { pose proof (toZ_rng (w (r, 4%nat))). apply lift_small.
      - rewrite ofZ_sub, !ofZ_add, !ofZ_mul, !ofZ_toZ. refine (eq_trans _ Hrow).
        change (ofZ (2 ^ 0)) with (@ofZ N 1). rewrite ofZ_1. ring.
      - unfold fr_mod in *. lia. }
    lia.
  Qed.
  Lemma d_leading_snd w n : snd_ w (assign_d_leading_limb N W n) (fun r => 0 <= zv w r < 2 ^ 67).
  Proof. rewrite d_leading_eq. eapply snd_conseq; [apply lead4_snd|]. intros r H. exact H. Qed.

  (** honest limbs always pass the checks *)
  Lemma ofZ_sum3 v : 0 <= v < 2 ^ 51 ->
    @ofZ N v = fadd (fadd (fmul (ofZ (ck v 34)) (ofZ (2 ^ 34))) (fmul (ofZ (ck v 17)) (ofZ (2 ^ 17)))) (ofZ (ck v 0)).
  Proof. intro Hv. rewrite <- !ofZ_mul, <- !ofZ_add. f_equal. now apply ck_sum3. Qed.
  Lemma ofZ_sum4 v : 0 <= v < 2 ^ 68 ->
    @ofZ N v = fadd (fadd (fadd (fmul (ofZ (ck v 51)) (ofZ (2 ^ 51))) (fmul (ofZ (ck v 34)) (ofZ (2 ^ 34))))
                          (fmul (ofZ (ck v 17)) (ofZ (2 ^ 17)))) (ofZ (ck v 0)).
  Proof. intro Hv. rewrite <- !ofZ_mul, <- !ofZ_add. f_equal. now apply ck_sum4. Qed.

  Lemma lead4_cpl c common t n : 
    common = 17%nat -> 
    (forall l, t = Some l -> Z.of_nat l <= 17 /\ toZ n < 2 ^ (51 + Z.of_nat l)) -> toZ n < 2 ^ 68 ->
    cpl c (bind (one_line_in_range common t [ch (toZ n) 51; ch (toZ n) 34; ch (toZ n) 17; ch (toZ n) 0; (VU n, fopp f1)] f0 [] f0)
         (fun cells => at_ cells 4)) (fun a c' => valid c' a /\ av_val a = n).
  Proof.
    intros -> Ht Hn. pose proof (toZ_rng n) as Hr. eapply cpl_conseq; [eapply range_at_cpl|].
    - cbn; unfold VAR_COLUMNS; lia.
    - cbn; unfold MUL_COLUMNS; lia.
    - repeat (apply Forall_cons; [exact I|]); apply Forall_nil.
    - unfold row_ok. cbn -[pf fadd fmul fopp f0 f1 fsub Z.pow ofZ].
      rewrite <- (ofZ_toZ N n) at 5. rewrite (ofZ_sum4 (toZ n)) by lia. change (ofZ (2 ^ 0)) with (@ofZ N 1). rewrite ofZ_1. ring.
    - intros i Hi. change (2 ^ Z.of_nat 17) with (2 ^ 17).
      destruct i as [|[|[|[|i]]]]; try lia; cbn -[Z.pow ofZ]; rewrite toZ_ck by lia; apply ck_range; lia.
    - intros l Hl. cbn -[Z.pow ofZ]. rewrite toZ_ck by lia. destruct (Ht l Hl). apply ck_top; lia.
    - reflexivity.
    - intros a c' _ _ _ [H1 H2]. split; [exact H1|exact H2].
  Qed.
  Lemma lead3_cpl c t n : Z.of_nat t <= 17 -> toZ n < 2 ^ (34 + Z.of_nat t) ->
    cpl c (lead3 t n) (fun a c' => valid c' a /\ av_val a = n).
  Proof.
    intros Ht Hn. pose proof (toZ_rng n) as Hr. unfold lead3.
    assert (Hn2 : toZ n < 2 ^ 51).
    { apply Z.lt_le_trans with (1 := Hn). apply Z.pow_le_mono_r; lia. }
    eapply cpl_conseq; [eapply range_at_cpl|].
    - cbn; unfold VAR_COLUMNS; lia.
    - cbn; unfold MUL_COLUMNS; lia.
    - repeat (apply Forall_cons; [exact I|]); apply Forall_nil.
    - unfold row_ok. cbn -[pf fadd fmul fopp f0 f1 fsub Z.pow ofZ].
      rewrite <- (ofZ_toZ N n) at 4. rewrite (ofZ_sum3 (toZ n)) by lia. change (ofZ (2 ^ 0)) with (@ofZ N 1). rewrite ofZ_1. ring.
    - intros i Hi. change (2 ^ Z.of_nat 17) with (2 ^ 17).
      destruct i as [|[|[|[|i]]]]; try lia; cbn -[Z.pow ofZ]; try (rewrite toZ_ck by lia; apply ck_range; lia).
      rewrite toZ_0. lia.
    - intros l [= <-]. cbn -[Z.pow ofZ]. rewrite toZ_ck by lia. apply ck_top; lia.
    - reflexivity.
    - intros a c' _ _ _ [H1 H2]. split; [exact H1|exact H2].
  Qed.
  Lemma nonleading_cpl c n : toZ n < 2 ^ 68 -> cpl c (assign_nonleading_limb n) (fun a c' => valid c' a /\ av_val a = n).
  Proof. intro H. unfold assign_nonleading_limb. rewrite schema4. apply lead4_cpl; [reflexivity|discriminate|exact H]. Qed.
  Lemma w_leading_cpl c n : toZ n < 2 ^ 50 -> cpl c (assign_w_ceil_leading_limb N W n) (fun a c' => valid c' a /\ av_val a = n).
  Proof.
    intro H. rewrite w_leading_eq. eapply cpl_bind; [now apply cpl_guard with (P := fun _ _ => True)|].
    intros [] c1 _ _ _ _. apply lead3_cpl; [lia|exact H].
  Qed.
  Lemma n_leading_cpl c n : toZ n < 2 ^ 49 -> cpl c (assign_n_floor_leading_limb N n) (fun a c' => valid c' a /\ av_val a = n).
  Proof.
    intro H. rewrite n_leading_eq. eapply cpl_bind; [now apply cpl_guard with (P := fun _ _ => True)|].
    intros [] c1 _ _ _ _. apply lead3_cpl; [lia|exact H].
  Qed.
  Lemma d_leading_cpl c n : toZ n < 2 ^ 67 -> cpl c (assign_d_leading_limb N W n) (fun a c' => valid c' a /\ av_val a = n).
  Proof.
    intro H. rewrite d_leading_eq. apply lead4_cpl; [reflexivity| |lia].
    intros l [= <-]. split; [lia|exact H].
  Qed.
End Facts.
