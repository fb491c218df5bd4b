(** Property C55: what halo2 checks is what the circuit asks for.

    All other theorems about circuits speak of the constraints that the chips emit, one by
    one ([sat]).  halo2 has a single gate and seven lookups, on all rows, steered by fixed
    columns and selectors, with four tables.  Here: for the aggregation circuit the two are
    the same. *)
From Coq Require Import String ZArith NArith Arith Lia List Bool.
From Verif Require Import Util Algebra ListFacts Schema Plonk Poseidon PoseidonSpec BuildParams.
From Verif Require Import PField Gate GateProofs GateExtra Integer Bn254 Bn254Prime IntegerFacts Curve CurveMod Ecc Calls VerifyCircuit CircuitRun CircuitRunSpec ExponentRun Shape ShapeRun MeasureProofs Grid GridProofs
  Properties_CircuitRun Properties_CircuitComplete Properties_Layout.
Import ListNotations.
Local Open Scope Z_scope.
Local Notation fr_n := (eq_refl : pf_n Fr = fr_mod).
Local Notation fq_n := (eq_refl : pf_n Fq = fq_mod).

(** ** The tables

    The tables can be made if and only if there are 2^17 rows and neither modulus is a power
    of two plus one. *)
Lemma leading_small bits : (leading_table bits <= 17)%nat.
Proof. unfold leading_table. pose proof (Z.mod_pos_bound bits 17 ltac:(lia)). destruct (_ =? 0); unfold COMMON_RANGE_BITS; lia. Qed.
Lemma table_made (N : PF) rows bits : (bits <= 17)%nat -> 2 ^ 17 <= Z.of_nat rows -> exists t, assign_table N rows bits = Some t.
Proof.
  intros H Hr. unfold assign_table. assert (2 ^ Z.of_nat bits <= 2 ^ 17) by (apply Z.pow_le_mono_r; lia). destruct (Z.ltb_spec (Z.of_nat rows) (2 ^ Z.of_nat bits)); [lia|]. eexists. reflexivity.
Qed.
Lemma between m : 1 <= m -> m <= 2 ^ nbits m /\ 2 ^ (nbits m - 1) <= m.
Proof.
  intros H. unfold nbits. destruct (Z.leb_spec m 0); [lia|]. pose proof (Z.log2_spec m ltac:(lia)) as [A B]. replace (Z.log2 m + 1 - 1) with (Z.log2 m) by lia.
  rewrite <- Z.add_1_r in B. split; [lia|exact A].
Qed.
Lemma not_power m : 1 <= m -> (2 ^ (nbits m - 1) < m <-> forall k, 0 <= k -> m <> 2 ^ k).
Proof.
  intros H. destruct (between m H) as [_ A]. unfold nbits in *. destruct (Z.leb_spec m 0); [lia|]. replace (Z.log2 m + 1 - 1) with (Z.log2 m) in * by lia. split.
  - intros L k Hk ->. rewrite Z.log2_pow2 in L by exact Hk. lia.
  - intros L. specialize (L (Z.log2 m) (Z.log2_nonneg m)). lia.
Qed.
Lemma quotient_fits (N W : PF) : pf_n W <= 2 ^ 270 -> 0 <= d_bits N W /\ 2 ^ d_bits N W * pf_n W + pf_n W <= Z.lcm integer_modulus (pf_n N).
Proof.
  intros HW. pose proof (pf_pos W) as PW. pose proof (pf_pos N) as PN. unfold d_bits, w_modulus, n_modulus.
  assert (HL : 2 ^ 272 <= Z.lcm integer_modulus (pf_n N)).
  { destruct (Z.divide_lcm_l integer_modulus (pf_n N)) as [k Hk]. pose proof (Z.lcm_nonneg integer_modulus (pf_n N)).
    assert (Z.lcm integer_modulus (pf_n N) <> 0) by (intro E; apply Z.lcm_eq_0 in E; unfold integer_modulus, LIMB_WIDTH in E; lia).
    assert (integer_modulus = 2 ^ 272) as E by reflexivity. rewrite E in *. nia. }
  revert HL. generalize (Z.lcm integer_modulus (pf_n N)). intros l HL. destruct (between (pf_n W - 1) ltac:(lia)) as [A B].
  set (wb := nbits (pf_n W - 1)) in *. assert (Hwb : 0 <= wb) by (unfold wb, nbits; destruct (_ <=? 0); [lia|pose proof (Z.log2_nonneg (pf_n W - 1)); lia]).
  assert (pf_n W <= 2 ^ wb).
  { unfold wb, nbits. destruct (Z.leb_spec (pf_n W - 1) 0); [lia|]. pose proof (Z.log2_spec (pf_n W - 1) ltac:(lia)) as [_ K]. rewrite <- Z.add_1_r in K. lia. }
  assert (wb <= 270).
  { destruct (Z.le_gt_cases wb 270) as [|L]; [assumption|exfalso]. assert (2 ^ 270 <= 2 ^ (wb - 1)) by (apply Z.pow_le_mono_r; lia). lia. }
  rewrite Z.shiftr_div_pow2 by exact Hwb. assert (P : 0 < 2 ^ wb) by (apply Z.pow_pos_nonneg; lia).
  assert (Q : 4 <= l / 2 ^ wb).
  { apply Z.div_le_lower_bound; [exact P|]. assert (2 ^ wb <= 2 ^ 270) by (apply Z.pow_le_mono_r; lia). assert (2 ^ 272 = 4 * 2 ^ 270) by reflexivity. lia. }
  pose proof (Z.mul_div_le l (2 ^ wb) P) as D. destruct (between (l / 2 ^ wb - 1) ltac:(lia)) as [_ C]. split.
  - unfold nbits. destruct (_ <=? 0) eqn:E; [apply Z.leb_le in E; lia|]. pose proof (Z.log2_nonneg (l / 2 ^ wb - 1)). lia.
  - revert C D Q. generalize (l / 2 ^ wb) (2 ^ (nbits (l / 2 ^ wb - 1) - 1)). intros q d C D Q. nia.
Qed.
Theorem C55_tables_made (N W : PF) rows : pf_n W <= 2 ^ 270 ->
  ((exists t, init_table N W rows = Some t) <->
   2 ^ 17 <= Z.of_nat rows /\ (forall k, 0 <= k -> pf_n W <> 2 ^ k + 1) /\ (forall k, 0 <= k -> pf_n N <> 2 ^ k + 1)).
Proof.
  intros HW. pose proof (pf_pos W) as PW. pose proof (pf_pos N) as PN. destruct (quotient_fits N W HW) as [D1 D2]. unfold init_table. cbv zeta.
  destruct (between (pf_n W - 1) ltac:(lia)) as [A1 A2]. destruct (between (pf_n N - 1) ltac:(lia)) as [B1 B2].
  pose proof (not_power (pf_n W - 1) ltac:(lia)) as NW. pose proof (not_power (pf_n N - 1) ltac:(lia)) as NN.
  replace (nbits (pf_n N - 1) - 1 + 1) with (nbits (pf_n N - 1)) by lia.
  apply Z.leb_le in A1, B1, D1, D2. rewrite A1, B1, D1, D2. rewrite !andb_true_r, andb_true_l. split.
  - intros [t Ht]. destruct (2 ^ _ <? _) eqn:E1 in Ht; [|discriminate]. destruct (2 ^ _ <? _) eqn:E2 in Ht; [|discriminate]. apply Z.ltb_lt in E1, E2. split; [|split].
    + cbn [andb] in Ht. unfold assign_table at 1 in Ht. destruct (Z.ltb_spec (Z.of_nat rows) (2 ^ Z.of_nat COMMON_RANGE_BITS)) as [L|L]; [discriminate|exact L].
    + intros k Hk E. apply (proj1 NW E1 k Hk). lia.
    + intros k Hk E. apply (proj1 NN E2 k Hk). lia.
  - intros (Hr & H1 & H2). rewrite (proj2 (Z.ltb_lt _ _) (proj2 NW ltac:(intros k Hk E; apply (H1 k Hk); lia))), (proj2 (Z.ltb_lt _ _) (proj2 NN ltac:(intros k Hk E; apply (H2 k Hk); lia))). cbn [andb].
    destruct (table_made N rows COMMON_RANGE_BITS ltac:(unfold COMMON_RANGE_BITS; lia) Hr) as [t1 ->]. destruct (table_made N rows (w_table W) (leading_small _) Hr) as [t2 ->].
    destruct (table_made N rows (n_table N) (leading_small _) Hr) as [t3 ->]. destruct (table_made N rows (d_table N W) (leading_small _) Hr) as [t4 ->]. eexists. reflexivity.
Qed.
Print Assumptions C55_tables_made.
(** For BN254: 2^17 usable rows are needed and enough.  The leading chunks have 16, 15 and 16 bits. *)
Theorem C55_tables_bn254 rows : (exists t, init_table Fr Fq rows = Some t) <-> 2 ^ 17 <= Z.of_nat rows.
Proof.
  rewrite (C55_tables_made Fr Fq rows) by (vm_compute; discriminate). split; [intros [H _]; exact H|]. intros H. split; [exact H|].
  assert (K : forall p, 2 ^ 253 + 1 < p < 2 ^ 254 -> forall k, 0 <= k -> p <> 2 ^ k + 1).
  { clear. intros p Hp k Hk ->. destruct (Z.le_gt_cases k 253) as [L|L]; [assert (2 ^ k <= 2 ^ 253) by (apply Z.pow_le_mono_r; lia); lia|].
    assert (2 ^ 254 <= 2 ^ k) by (apply Z.pow_le_mono_r; lia). lia. }
  split; apply K; vm_compute; split; reflexivity.
Qed.
Print Assumptions C55_tables_bn254.

(** ** The circuit *)
Section C55.
  (** Any fields, any group of commitments, any encodings, any constants of the sponge. *)
  Variables N W : PF.
  Variable M : Mod N.
  Variable affine : M -> point W.
  Variables (PT SC : nat).
  Variable pt_decode : list Z -> option M.
  Variable sc_decode : list Z -> option N.
  Variable sp : pspec N.
  Variable RATE : nat.
  Variable init : list N.
  Variable generator : M.
  Notation given := (given N (kzg N M) (key N M)).
  Notation layout := (x_synthesize N W M affine PT SC pt_decode sc_decode sp RATE init generator).

  (** The circuit is written as a log of lines, one for each row; and whatever the advice
      columns hold, halo2 accepts them on all rows, with the fixed columns of that log and the
      tables of [init_table], if and only if they satisfy the constraints one by one. *)
  Theorem C55_circuit nw (gs : list given) coherent r c : layout nw gs coherent (ctx0 N) = Some (r, c) ->
    (exists log, log_of W c log) /\
    forall log rows t w, log_of W c log -> init_table N W rows = Some t -> (offset c <= rows)%nat -> (accepts rows t log w <-> sat w c).
  Proof.
    intros E. split; [|intros log rows t w HL HT Hr; apply (accepts_sat N W rows t c log w HT Hr HL)].
    destruct (x_synthesize_shp N W M affine PT SC pt_decode sc_decode sp RATE init generator (logged N W) (GridProofs.ra N) (log_line N W) (log_rline N W) nw gs gs coherent
      eq_refl eq_refl (ctx0 N) (ctx0 N) (logged0 N W) _ _ _ _ E E) as [H _]. exact H.
  Qed.
  Lemma state_refl (s : xst N) : RSt N (GridProofs.ra N) s s.
  Proof.
    assert (R : forall (A : Type) (R : A -> A -> Prop) l, (forall a, R a a) -> Forall2 R l l) by (intros A R l H; induction l; constructor; auto).
    split; apply R; [intros [a|p]; [exact I|exact (rt_refl N p)]|]. intros t. split; apply R; intros a; exact I.
  Qed.
  (** The same for any list of chip calls. *)
  Theorem C55_calls calls s (r : xst N * list (note N)) c : x_calls N W M affine PT SC pt_decode sc_decode sp RATE generator calls s (ctx0 N) = Some (r, c) ->
    (exists log, log_of W c log) /\
    forall log rows t w, log_of W c log -> init_table N W rows = Some t -> (offset c <= rows)%nat -> (accepts rows t log w <-> sat w c).
  Proof.
    intros E. pose proof (state_refl s) as Hs. split; [|intros log rows t w HL HT Hr; apply (accepts_sat N W rows t c log w HT Hr HL)].
    destruct (x_calls_shp N W M affine PT SC pt_decode sc_decode sp RATE generator (logged N W) (GridProofs.ra N) (log_line N W) (log_rline N W) calls s s Hs (ctx0 N) (ctx0 N) (logged0 N W) _ _ _ _ E E) as [H _].
    exact H.
  Qed.
End C55.
Print Assumptions C55_circuit.
Print Assumptions C55_calls.

(** ** Cases *)
Example C55_example : exists column notes c log rows t, mini_layout 5 0 = Some ((column, notes), c) /\ log_of Fq c log /\
  init_table Fr Fq rows = Some t /\ (offset c <= rows)%nat /\ accepts rows t log (adv c) /\ (forall w, accepts rows t log w <-> sat w c).
Proof.
  destruct (mini_circuit 5 0 3 15 mini_run5 ltac:(discriminate) ltac:(discriminate)) as (ns & column & notes & c & E & Hs & _).
  destruct (C55_circuit Fr Fq BN affine 2 1 pair_decode one_decode (two_spec Fr) 1 (two_init Fr) G12 (fun _ => 2%nat) (minis 5 0) [] _ _ E) as [(log & HL) K].
  destruct (proj2 (C55_tables_bn254 (offset c + Z.to_nat (2 ^ 17))%nat)) as [t Ht]; [rewrite Nat2Z.inj_add, Z2Nat.id by (apply Z.pow_nonneg; lia); lia|].
  exists column, notes, c, log, (offset c + Z.to_nat (2 ^ 17))%nat, t. assert (R : (offset c <= offset c + Z.to_nat (2 ^ 17))%nat) by apply Nat.le_add_r.
  split; [exact E|]. split; [exact HL|]. split; [exact Ht|]. split; [exact R|]. split; [apply (proj2 (K log _ t (adv c) HL Ht R)); exact Hs|]. intro w. exact (K log _ t w HL Ht R).
Qed.
Print Assumptions C55_example.
(** One line: the leading limb of an integer, in three chunks, the first of which is also looked
    up in a smaller table.  The honest cells are accepted; no others than of 50 bits are. *)
Example C55_example_leading : exists a c log rows t, assign_w_ceil_leading_limb Fr Fq (ofZ (3 * 2 ^ 34 + 7)) (ctx0 Fr) = Some (a, c) /\ log_of Fq c log /\
  init_table Fr Fq rows = Some t /\ accepts rows t log (adv c) /\ av_val a = ofZ (3 * 2 ^ 34 + 7) /\
  (forall w, accepts rows t log w -> toZ (w (av_cell a)) < 2 ^ 50) /\ (forall w, w (av_cell a) = ofZ (2 ^ 50) -> ~ accepts rows t log w).
Proof.
  destruct (w_leading_cpl Fr Fq fr_n fq_n (ctx0 Fr) (ofZ (3 * 2 ^ 34 + 7)) ltac:(vm_compute; reflexivity) (good_ctx0 Fr)) as (a & c & E & _ & Hg & _ & Ha).
  destruct (wl_shp Fr Fq (logged Fr Fq) (GridProofs.ra Fr) (log_rline Fr Fq) _ _ (ctx0 Fr) (ctx0 Fr) (logged0 Fr Fq) _ _ _ _ E E) as [(log & HL) _].
  destruct (proj2 (C55_tables_bn254 (offset c + Z.to_nat (2 ^ 17))%nat)) as [t Ht]; [rewrite Nat2Z.inj_add, Z2Nat.id by (apply Z.pow_nonneg; lia); lia|].
  assert (R : (offset c <= offset c + Z.to_nat (2 ^ 17))%nat) by apply Nat.le_add_r.
  assert (K : forall w, accepts (offset c + Z.to_nat (2 ^ 17)) t log w -> toZ (w (av_cell a)) < 2 ^ 50).
  { intros w Hw. apply (accepts_sat Fr Fq _ t c log w Ht R HL) in Hw. exact (proj2 (proj2 (w_leading_snd Fr Fq fr_n fq_n w _ (ctx0 Fr) a c E Hw))). }
  exists a, c, log, (offset c + Z.to_nat (2 ^ 17))%nat, t. split; [exact E|]. split; [exact HL|]. split; [exact Ht|].
  split; [apply (accepts_sat Fr Fq _ t c log _ Ht R HL), Hg; intros ? ?; reflexivity|]. split; [exact Ha|]. split; [exact K|].
  intros w Hw Hacc. specialize (K w Hacc). rewrite Hw in K. vm_compute in K. discriminate.
Qed.
Print Assumptions C55_example_leading.
