(** Proofs about the public inputs of the aggregation circuit. *)
From Coq Require Import String ZArith NArith Arith Lia List Bool Ring Field.
From Verif Require Import Util Algebra Schema Plonk Keys BuildParams PField Bytes Gate GateProofs GateOps Integer Curve Ecc Bn254
  IntegerFacts IntegerSound IntegerOps IntegerComplete IntegerComplete2 IntegerComplete3 IntegerHistory IntegerHistoryComplete EccComplete Evm VerifyCircuit.
Import ListNotations.
Local Open Scope Z_scope.

(** Specification: the two words for a point given by integer coordinates. *)
Definition point_words (x y : Z) : list Z := [x mod 2 ^ 136; x / 2 ^ 136 + 2 ^ 136 * (y mod 2)].

Section Words.
  Variables N W : PF.
  Hypothesis HN : pf_n N = fr_mod.
  Hypothesis HW : pf_n W = fq_mod.
  Add Field NFv : (f_th N).

  Lemma two_limbs (a b : Z) : 0 <= a < 2 ^ 68 -> 0 <= b < 2 ^ 68 ->
    toZ (fadd (fmul (@ofZ N a) (limb_exp N 0)) (fmul (ofZ b) (limb_exp N 1))) = a + b * 2 ^ 68.
  Proof.
    intros Ha Hb. rewrite !limb_exp_eq. change (68 * Z.of_nat 0) with 0. change (68 * Z.of_nat 1) with 68. rewrite <- !ofZ_mul, <- ofZ_add.
    rewrite toZ_small; [ring|]. rewrite HN. unfold fr_mod. lia.
  Qed.
  Lemma three_limbs (a b t : Z) : 0 <= a < 2 ^ 68 -> 0 <= b < 2 ^ 50 -> 0 <= t <= 1 ->
    toZ (fadd (fadd (fmul (@ofZ N a) (limb_exp N 0)) (fmul (ofZ b) (limb_exp N 1))) (fmul (ofZ t) (limb_exp N 2))) = a + b * 2 ^ 68 + t * 2 ^ 136.
  Proof.
    intros Ha Hb Ht. rewrite !limb_exp_eq. change (68 * Z.of_nat 0) with 0. change (68 * Z.of_nat 1) with 68. change (68 * Z.of_nat 2) with 136.
    rewrite <- !ofZ_mul, <- !ofZ_add. rewrite toZ_small; [ring|]. rewrite HN. unfold fr_mod. lia.
  Qed.
  Lemma limbs_words (a0 a1 a2 a3 y : Z) : 0 <= a0 < 2 ^ 68 -> 0 <= a1 < 2 ^ 68 -> 0 <= a2 < 2 ^ 68 -> 0 <= a3 ->
    point_words (a0 + a1 * 2 ^ 68 + a2 * 2 ^ 136 + a3 * 2 ^ 204) y = [a0 + a1 * 2 ^ 68; a2 + a3 * 2 ^ 68 + y mod 2 * 2 ^ 136].
  Proof.
    intros H0 H1 H2 H3. unfold point_words.
    replace (a0 + a1 * 2 ^ 68 + a2 * 2 ^ 136 + a3 * 2 ^ 204) with (a0 + a1 * 2 ^ 68 + (a2 + a3 * 2 ^ 68) * 2 ^ 136) by lia.
    rewrite Z.mod_add, Z.div_add by lia. rewrite Z.mod_small, Z.div_small by lia. f_equal. f_equal. lia.
  Qed.

  (** ** The native computation *)
  Lemma coord_rng (x : W) : 0 <= toZ x < fq_mod.
  Proof. rewrite <- HW. apply toZ_range. Qed.
  Lemma fq_254 : fq_mod < 2 ^ 254.
  Proof. unfold fq_mod. lia. Qed.
  Lemma odd_mod z : Z.odd z = (z mod 2 =? 1).
  Proof. rewrite Zmod_odd. now destruct (Z.odd z). Qed.
  Lemma limb0_mod2 v : bn_limb 0 v mod 2 = v mod 2.
  Proof.
    unfold bn_limb, limb_modulus, LIMB_WIDTH. symmetry. rewrite (Z.div_mod v (2 ^ 68)) at 1 by lia.
    replace (2 ^ 68 * (v / 2 ^ 68) + v mod 2 ^ 68) with (v mod 2 ^ 68 + (v / 2 ^ 68 * 2 ^ 67) * 2) by lia. now rewrite Z.mod_add by lia.
  Qed.
  Lemma native_words (x y : W) : map (@toZ N) [low_word N W x; high_word N W x y] = point_words (toZ x) (toZ y).
  Proof.
    pose proof (coord_rng x) as Rx. pose proof fq_254.
    assert (L : forall v i, (i < 3)%nat -> 0 <= bn_limb i v < 2 ^ 68) by (intros; now apply bn_limb_lo).
    pose proof (bn_limb_hi (toZ x) 50 ltac:(lia) ltac:(lia)) as H3.
    rewrite (bn_limb_sum (toZ x)) at 1 by lia. rewrite limbs_words; [|apply L; lia ..|lia]. cbn [map]. f_equal; [|f_equal].
    - unfold low_word, w_to_limb_n_le. apply two_limbs; apply L; lia.
    - unfold high_word, w_to_limb_n_le, last_bit_word. rewrite toZ_small by (rewrite HN; pose proof (L (toZ y) 0%nat ltac:(lia)); unfold fr_mod; lia).
      rewrite odd_mod, limb0_mod2. pose proof (Z.mod_pos_bound (toZ y) 2 ltac:(lia)) as Hb.
      replace (if toZ y mod 2 =? 1 then limb_exp N 2 else f0) with (fmul (@ofZ N (toZ y mod 2)) (limb_exp N 2)).
      + apply three_limbs; [apply L; lia|exact H3|lia].
      + assert (E : toZ y mod 2 = 0 \/ toZ y mod 2 = 1) by lia. destruct E as [->| ->]; [rewrite ofZ_0|rewrite ofZ_1]; cbn [Z.eqb Pos.eqb]; ring.
  Qed.

  (** ** The contract *)
  Lemma copy_all : forall l pre, copy_instances (pre ++ l) (length pre) (length l) = Some l.
  Proof.
    induction l as [|v l IH]; intro pre; cbn [length copy_instances]; [reflexivity|].
    rewrite nth_error_app2 by lia. rewrite Nat.sub_diag. cbn [nth_error].
    specialize (IH (pre ++ [v])). rewrite <- app_assoc in IH. cbn [app] in IH. rewrite app_length in IH. cbn [length] in IH.
    rewrite Nat.add_1_r in IH. now rewrite IH.
  Qed.
  Lemma contract_words x0 y0 x1 y1 ins : 0 <= x0 < 2 ^ 256 -> 0 <= x1 < 2 ^ 256 ->
    contract_instances (4 + length ins) (x0 :: y0 :: x1 :: y1 :: ins) = Some (point_words x0 y0 ++ point_words x1 y1 ++ ins).
  Proof.
    intros H0 H1. unfold contract_instances. cbn [nth_error]. rewrite Nat.add_comm, Nat.add_sub.
    change (x0 :: y0 :: x1 :: y1 :: ins) with ([x0; y0; x1; y1] ++ ins). change 4%nat with (length [x0; y0; x1; y1]) at 1. rewrite copy_all.
    unfold point_words. cbn [app]. unfold shr, shl. rewrite !Z.shiftr_div_pow2 by lia.
    change (2 ^ 136 - 1) with (Z.ones 136). rewrite !Z.land_ones by lia. change 1 with (Z.ones 1) at 1 2. rewrite !Z.land_ones by lia.
    change (2 ^ 1) with 2. rewrite !Z.shiftl_mul_pow2 by lia.
    pose proof (Z.mod_pos_bound y0 2 ltac:(lia)). pose proof (Z.mod_pos_bound y1 2 ltac:(lia)).
    rewrite !(Z.mod_small _ (2 ^ 256)) by lia. rewrite (Z.mul_comm (y0 mod 2)), (Z.mul_comm (y1 mod 2)). reflexivity.
  Qed.

  (** ** Reading the words back *)
  Lemma point_words_inj x y x' y' : 0 <= x < 2 ^ 254 -> 0 <= x' < 2 ^ 254 -> point_words x y = point_words x' y' -> x = x' /\ y mod 2 = y' mod 2.
  Proof.
    intros Hx Hx' E. assert (E1 := f_equal (fun l => nth 0 l 0) E). assert (E2 := f_equal (fun l => nth 1 l 0) E). unfold point_words in E1, E2. cbn [nth] in E1, E2. clear E.
    pose proof (Z.div_mod x (2 ^ 136) ltac:(lia)) as D. pose proof (Z.div_mod x' (2 ^ 136) ltac:(lia)) as D'.
    assert (0 <= x / 2 ^ 136 < 2 ^ 118) by (split; [apply Z.div_pos; lia|apply Z.div_lt_upper_bound; lia]).
    assert (0 <= x' / 2 ^ 136 < 2 ^ 118) by (split; [apply Z.div_pos; lia|apply Z.div_lt_upper_bound; lia]).
    pose proof (Z.mod_pos_bound y 2 ltac:(lia)). pose proof (Z.mod_pos_bound y' 2 ltac:(lia)).
    revert D D' E1 E2 H H0 H1 H2. generalize (x / 2 ^ 136) (x' / 2 ^ 136) (x mod 2 ^ 136) (x' mod 2 ^ 136) (y mod 2) (y' mod 2). intros. lia.
  Qed.

  (** ** The circuit *)
  Lemma expose_low_snd (w : asg N) x : snd_ w (expose_low N x) (fun r => bnd w x 1 -> zv N w r = zv N w (l0 x) + zv N w (l1 x) * 2 ^ 68).
  Proof.
    eapply snd_conseq; [apply sum_with_constant_snd|]. intros r E (B0 & B1 & _). unfold zv in *.
    rewrite E. cbn [lsum]. rewrite <- (two_limbs (toZ (w (av_cell (l0 x)))) (toZ (w (av_cell (l1 x))))).
    - f_equal. rewrite !ofZ_toZ. ring.
    - pose proof (toZ_range N (w (av_cell (l0 x)))). lia.
    - pose proof (toZ_range N (w (av_cell (l1 x)))). lia.
  Qed.
  Lemma expose_high_snd (w : asg N) x b : snd_ w (expose_high N x b) (fun r => bnd w x 1 -> zv N w b <= 1 ->
    zv N w r = zv N w (l2 x) + zv N w (l3 x) * 2 ^ 68 + zv N w b * 2 ^ 136).
  Proof.
    eapply snd_conseq; [apply sum_with_constant_snd|]. intros r E (_ & _ & B2 & B3) Bb. unfold zv in *.
    rewrite E. cbn [lsum]. rewrite <- (three_limbs (toZ (w (av_cell (l2 x)))) (toZ (w (av_cell (l3 x)))) (toZ (w (av_cell b)))).
    - f_equal. rewrite !ofZ_toZ. ring.
    - pose proof (toZ_range N (w (av_cell (l2 x)))). lia.
    - pose proof (toZ_range N (w (av_cell (l3 x)))). lia.
    - pose proof (toZ_range N (w (av_cell b))). lia.
  Qed.
  Lemma words_of_limbs (w : asg N) x y u v b : bnd w x 1 -> zv N w b = iv w y mod 2 ->
    zv N w u = zv N w (l0 x) + zv N w (l1 x) * 2 ^ 68 -> zv N w v = zv N w (l2 x) + zv N w (l3 x) * 2 ^ 68 + zv N w b * 2 ^ 136 ->
    [zv N w u; zv N w v] = point_words (iv w x) (iv w y).
  Proof.
    intros (B0 & B1 & B2 & B3) Eb Eu Ev. rewrite Eu, Ev, Eb.
    pose proof (zv_rng N HN w (l0 x)). pose proof (zv_rng N HN w (l1 x)). pose proof (zv_rng N HN w (l2 x)). pose proof (zv_rng N HN w (l3 x)).
    unfold iv at 2. unfold lv4. symmetry. apply limbs_words; lia.
  Qed.

  Lemma bnd_254 (w : asg N) x : bnd w x 1 -> 0 <= iv w x < 2 ^ 254.
  Proof. intro B1. pose proof (iv_nonneg N HN w x). pose proof (iv_bnd N w x 1 B1). lia. Qed.
  (** The words exposed are those of integers below 2^254 that represent the coordinates. *)
  Definition exposes (w : asg N) (p1 p2 : apoint N) (ws : list (aval N)) : Prop :=
    exists x0 y0 x1 y1, map (zv N w) ws = point_words x0 y0 ++ point_words x1 y1 /\
      (0 <= x0 < 2 ^ 254 /\ @ofZ W x0 = fv W w (pt_x p1)) /\ (0 <= y0 < 2 ^ 254 /\ @ofZ W y0 = fv W w (pt_y p1)) /\
      (0 <= x1 < 2 ^ 254 /\ @ofZ W x1 = fv W w (pt_x p2)) /\ (0 <= y1 < 2 ^ 254 /\ @ofZ W y1 = fv W w (pt_y p2)).
  Lemma reduce_1 (w : asg N) x : snd_ w (int_reduce W x) (fun r => wfi w x -> (overflows x < 64)%nat -> fv W w r = fv W w x /\ bnd w r 1).
  Proof.
    eapply snd_conseq; [apply (reduce_snd' N W HN HW) with (K := Z.of_nat (overflows x) + 1)|]. intros r H [Bx nx] Ox.
    destruct (H ltac:(lia) Bx nx) as (E & _ & _ & _ & HS & H1). split; [exact E|].
    destruct (Nat.eq_dec (overflows x) 0) as [Z0|Z0]; [|exact (H1 Z0)]. rewrite Z0 in Bx. exact (same_bnd N w x r 1 (HS Z0) Bx).
  Qed.
  Definition wf_pt (w : asg N) (p : apoint N) : Prop :=
    (wfi w (pt_x p) /\ (overflows (pt_x p) < 64)%nat) /\ (wfi w (pt_y p) /\ (overflows (pt_y p) < 64)%nat).
  Lemma expose_pair_snd (w : asg N) p1 p2 : snd_ w (expose_pair N W p1 p2) (fun ws => wf_pt w p1 -> wf_pt w p2 -> exposes w p1 p2 ws).
  Proof.
    unfold expose_pair.
    eapply snd_bind; [apply reduce_1|]. intro x0. eapply snd_bind; [apply reduce_1|]. intro y0.
    eapply snd_bind; [apply reduce_1|]. intro x1. eapply snd_bind; [apply reduce_1|]. intro y1.
    eapply snd_bind; [apply snd_guard with (P := fun _ => True); trivial|]. intros [].
    eapply snd_bind; [apply (get_last_bit_snd N HN) with (K := 1)|]. intro b0.
    eapply snd_bind; [apply (get_last_bit_snd N HN) with (K := 1)|]. intro b1.
    eapply snd_bind; [apply expose_low_snd|]. intro w0. eapply snd_bind; [apply expose_high_snd|]. intro w1.
    eapply snd_bind; [apply expose_low_snd|]. intro w2. eapply snd_bind; [apply expose_high_snd|]. intro w3.
    apply snd_ret. intros H11 H10 H9 H8 Hb1 Hb0 _ Hy1 Hx1 Hy0 Hx0 [[X0 X0'] [Y0 Y0']] [[X1 X1'] [Y1 Y1']].
    destruct (Hx0 X0 X0') as [Ex0 Bx0]. destruct (Hy0 Y0 Y0') as [Ey0 By0]. destruct (Hx1 X1 X1') as [Ex1 Bx1]. destruct (Hy1 Y1 Y1') as [Ey1 By1].
    specialize (Hb0 ltac:(lia) By0). specialize (Hb1 ltac:(lia) By1).
    exists (iv w x0), (iv w y0), (iv w x1), (iv w y1). split.
    - cbn [map]. change (?a :: ?b :: ?r) with ([a; b] ++ r). f_equal.
      + eapply words_of_limbs; eauto. apply H9; [exact Bx0|]. pose proof (Z.mod_pos_bound (iv w y0) 2 ltac:(lia)). lia.
      + eapply words_of_limbs; eauto. apply H11; [exact Bx1|]. pose proof (Z.mod_pos_bound (iv w y1) 2 ltac:(lia)). lia.
    - repeat split; try assumption; now apply bnd_254.
  Qed.
  Lemma synthesize_tail_snd (w : asg N) p1 p2 ins : snd_ w (synthesize_tail N W p1 p2 ins)
    (fun cells => wf_pt w p1 -> wf_pt w p2 ->
      w (av_cell (pt_z p1)) = f0 /\ w (av_cell (pt_z p2)) = f0 /\ exists ws, cells = ws ++ ins /\ exposes w p1 p2 ws).
  Proof.
    unfold synthesize_tail, assert_false.
    eapply snd_bind; [apply assert_constant_snd|]. intros []. eapply snd_bind; [apply assert_constant_snd|]. intros [].
    eapply snd_bind; [apply expose_pair_snd|]. intro ws. apply snd_ret. intros H Z2 Z1 W1 W2. split; [exact Z1|]. split; [exact Z2|].
    exists ws. split; [reflexivity|auto].
  Qed.

  (** ** The honest prover *)
  Lemma expose_low_cpl (c : ctx N) x : ok c x -> vbnd x 1 ->
    cpl c (expose_low N x) (fun r c' => valid c' r /\ toZ (av_val r) = vz (l0 x) + vz (l1 x) * 2 ^ 68).
  Proof.
    intros (V0 & V1 & V2 & V3 & _) (B0 & B1 & _). eapply cpl_conseq; [apply sum_with_constant_cpl; repeat (apply Forall_cons; [assumption|]); apply Forall_nil|].
    intros r c' _ _ _ [V E]. split; [exact V|]. rewrite E. unfold vz in *. cbn [vsum].
    rewrite <- (two_limbs (toZ (av_val (l0 x))) (toZ (av_val (l1 x)))).
    - f_equal. rewrite !ofZ_toZ. ring.
    - pose proof (toZ_range N (av_val (l0 x))). lia.
    - pose proof (toZ_range N (av_val (l1 x))). lia.
  Qed.
  Lemma expose_high_cpl (c : ctx N) x b : ok c x -> vbnd x 1 -> valid c b -> toZ (av_val b) <= 1 ->
    cpl c (expose_high N x b) (fun r c' => valid c' r /\ toZ (av_val r) = vz (l2 x) + vz (l3 x) * 2 ^ 68 + toZ (av_val b) * 2 ^ 136).
  Proof.
    intros (V0 & V1 & V2 & V3 & _) (_ & _ & B2 & B3) Vb Bb. eapply cpl_conseq; [apply sum_with_constant_cpl; repeat (apply Forall_cons; [assumption|]); apply Forall_nil|].
    intros r c' _ _ _ [V E]. split; [exact V|]. rewrite E. unfold vz in *. cbn [vsum].
    rewrite <- (three_limbs (toZ (av_val (l2 x))) (toZ (av_val (l3 x))) (toZ (av_val b))).
    - f_equal. rewrite !ofZ_toZ. ring.
    - pose proof (toZ_range N (av_val (l2 x))). lia.
    - pose proof (toZ_range N (av_val (l3 x))). lia.
    - pose proof (toZ_range N (av_val b)). lia.
  Qed.
  Definition shows (c : ctx N) (ws : list (aval N)) (zs : list Z) : Prop := Forall (valid c) ws /\ map (fun a => toZ (av_val a)) ws = zs.
  Lemma reduce_canon (c : ctx N) a (v : W) i : has_int N W c a (v, i) ->
    cpl c (int_reduce W a) (fun r c' => ok c' r /\ bn_of r = toZ v /\ vbnd r 1).
  Proof.
    intros (Ha & E & _). cbn [fst] in E. eapply cpl_conseq; [apply (int_reduce_wf N W HN HW); exact Ha|]. intros r c' _ _ _ (O & V & Bd & _).
    split; [exact O|]. split; [|exact Bd]. rewrite V, <- E, toZ_ofZ, HW. reflexivity.
  Qed.
  Lemma words_of_values (x y : aint N) (u v b : aval N) (vx vy : W) : vbnd x 1 -> bn_of x = toZ vx -> bn_of y = toZ vy ->
    av_val b = (if Z.odd (bn_of y) then f1 else f0) ->
    toZ (av_val u) = vz (l0 x) + vz (l1 x) * 2 ^ 68 -> toZ (av_val v) = vz (l2 x) + vz (l3 x) * 2 ^ 68 + toZ (av_val b) * 2 ^ 136 ->
    [toZ (av_val u); toZ (av_val v)] = point_words (toZ vx) (toZ vy).
  Proof.
    intros (B0 & B1 & B2 & B3) Ex Ey Eb Eu Ev. rewrite <- Ex, (bn_of_eq N), limbs_words.
    - rewrite Eu, Ev, Eb, <- Ey. rewrite Zmod_odd. destruct (Z.odd (bn_of y)); [rewrite (toZ_1 N)|rewrite (toZ_0 N)]; reflexivity.
    - unfold vz in *. pose proof (toZ_range N (av_val (l0 x))). lia.
    - unfold vz in *. pose proof (toZ_range N (av_val (l1 x))). lia.
    - unfold vz in *. pose proof (toZ_range N (av_val (l2 x))). lia.
    - unfold vz in *. pose proof (toZ_range N (av_val (l3 x))). lia.
  Qed.
  Lemma bit_le1 (b : aval N) z : av_val b = (if Z.odd z then f1 else f0) -> toZ (av_val b) <= 1.
  Proof. intros ->. destruct (Z.odd z); [rewrite (toZ_1 N)|rewrite (toZ_0 N)]; lia. Qed.
  Lemma expose_pair_cpl (c : ctx N) p1 p2 x0 y0 z0 i0 j0 x1 y1 z1 i1 j1 :
    has_pt N W c p1 x0 y0 z0 i0 j0 -> has_pt N W c p2 x1 y1 z1 i1 j1 ->
    cpl c (expose_pair N W p1 p2) (fun ws c' => shows c' ws (point_words (toZ x0) (toZ y0) ++ point_words (toZ x1) (toZ y1))).
  Proof.
    intros (X0 & Y0 & _) (X1 & Y1 & _). unfold expose_pair.
    eapply cpl_bind; [exact (reduce_canon c _ _ _ X0)|]. intros a0 c1 _ L1 _ (Oa0 & Ea0 & Ba0).
    eapply cpl_bind; [apply (reduce_canon c1 _ y0 j0); now apply (has_int_le N W c)|]. intros a1 c2 _ L2 _ (Oa1 & Ea1 & Ba1).
    eapply cpl_bind; [apply (reduce_canon c2 _ x1 i1); apply (has_int_le N W c1); [assumption|]; now apply (has_int_le N W c)|]. intros a2 c3 _ L3 _ (Oa2 & Ea2 & Ba2).
    eapply cpl_bind; [apply (reduce_canon c3 _ y1 j1); apply (has_int_le N W c2); [assumption|]; apply (has_int_le N W c1); [assumption|]; now apply (has_int_le N W c)|]. intros a3 c4 _ L4 _ (Oa3 & Ea3 & Ba3).
    eapply cpl_bind; [apply cpl_guard with (P := fun _ c' => c' = c4); [unfold w_modulus; rewrite HW; reflexivity|reflexivity]|]. intros [] ? _ _ _ ->.
    assert (L14 : ctx_le c1 c4) by eauto using ctx_le_trans. assert (L24 : ctx_le c2 c4) by eauto using ctx_le_trans.
    apply (ok_le N c1 c4) in Oa0; [|assumption]. apply (ok_le N c2 c4) in Oa1; [|assumption]. apply (ok_le N c3 c4) in Oa2; [|assumption].
    eapply cpl_bind; [apply (get_last_bit_wf N HN c4); assumption|]. intros b0 c5 _ L5 _ (Vb0 & Eb0).
    eapply cpl_bind; [apply (get_last_bit_wf N HN c5); [now apply (ok_le N c4)|assumption]|]. intros b1 c6 _ L6 _ (Vb1 & Eb1).
    assert (L46 : ctx_le c4 c6) by eauto using ctx_le_trans.
    eapply cpl_bind; [apply (expose_low_cpl c6); [now apply (ok_le N c4)|assumption]|]. intros w0 c7 _ L7 _ (Vw0 & Ew0).
    eapply cpl_bind; [apply (expose_high_cpl c7 a0 b0); [apply (ok_le N c4); eauto using ctx_le_trans|assumption|eauto using valid_le|now apply bit_le1 with (z := bn_of a1)]|].
    intros w1 c8 _ L8 _ (Vw1 & Ew1).
    eapply cpl_bind; [apply (expose_low_cpl c8 a2); [apply (ok_le N c4); eauto using ctx_le_trans|assumption]|]. intros w2 c9 _ L9 _ (Vw2 & Ew2).
    eapply cpl_bind; [apply (expose_high_cpl c9 a2 b1); [apply (ok_le N c4); eauto 6 using ctx_le_trans|assumption|eauto using valid_le|now apply bit_le1 with (z := bn_of a3)]|].
    intros w3 c10 _ L10 _ (Vw3 & Ew3). apply cpl_ret. split; [repeat (apply Forall_cons; [eauto using valid_le|]); apply Forall_nil|].
    cbn [map]. change (?a :: ?b :: ?r) with ([a; b] ++ r). f_equal.
    - exact (words_of_values a0 a1 w0 w1 b0 x0 y0 Ba0 Ea0 Ea1 Eb0 Ew0 Ew1).
    - exact (words_of_values a2 a3 w2 w3 b1 x1 y1 Ba2 Ea2 Ea3 Eb1 Ew2 Ew3).
  Qed.
  Lemma synthesize_tail_cpl (c : ctx N) p1 p2 x0 y0 i0 j0 x1 y1 i1 j1 ins :
    has_pt N W c p1 x0 y0 false i0 j0 -> has_pt N W c p2 x1 y1 false i1 j1 -> Forall (valid c) ins ->
    cpl c (synthesize_tail N W p1 p2 ins) (fun cells c' =>
      shows c' cells (point_words (toZ x0) (toZ y0) ++ point_words (toZ x1) (toZ y1) ++ map (fun a => toZ (av_val a)) ins)).
  Proof.
    intros H1 H2 Vi. unfold synthesize_tail, assert_false.
    assert (Z1 := H1). assert (Z2 := H2). destruct Z1 as (_ & _ & [Vz0 Ez0] & _). destruct Z2 as (_ & _ & [Vz1 Ez1] & _).
    eapply cpl_bind; [apply assert_constant_cpl; assumption|]. intros [] c1 _ L1 _ _.
    eapply cpl_bind; [apply assert_constant_cpl; [now apply (valid_le N c)|assumption]|]. intros [] c2 _ L2 _ _.
    eapply cpl_bind; [eapply expose_pair_cpl; (apply (has_pt_le N W c1); [assumption|]; apply (has_pt_le N W c); [assumption|eassumption])|].
    intros ws c3 _ L3 _ [Vw Ew]. apply cpl_ret. split.
    - apply Forall_app. split; [exact Vw|]. eapply Forall_impl; [|exact Vi]. eauto using valid_le.
    - rewrite map_app, Ew, <- app_assoc. reflexivity.
  Qed.
  Definition yields {A} (m : B N A) (P : A -> Prop) : Prop := forall c r c', m c = Some (r, c') -> P r.
  Lemma yields_bind {A A'} (m : B N A) (f : A -> B N A') P : (forall a, yields (f a) P) -> yields (bind m f) P.
  Proof. intros H c r c'. unfold bind. destruct (m c) as [[a c1]|]; [|discriminate]. apply H. Qed.
  Lemma yields_ret {A} (a : A) (P : A -> Prop) : P a -> yields (ret a) P.
  Proof. intros H c r c' E. unfold ret in E. injection E as <- _. exact H. Qed.
  Lemma yields_bind2 {A A'} (m : B N A) (f : A -> B N A') (Q : A -> Prop) P : yields m Q -> (forall a, Q a -> yields (f a) P) -> yields (bind m f) P.
  Proof. intros Hm H c r c'. unfold bind. destruct (m c) as [[a c1]|] eqn:E; [|discriminate]. exact (H a (Hm _ _ _ E) _ _ _). Qed.
  Lemma synthesize_tail_shape p1 p2 ins : yields (synthesize_tail N W p1 p2 ins) (fun column => exists a b d e, column = a :: b :: d :: e :: ins).
  Proof.
    unfold synthesize_tail. do 2 (apply yields_bind; intro).
    apply yields_bind2 with (Q := fun ws => exists a b d e, ws = [a; b; d; e]).
    - unfold expose_pair. repeat (apply yields_bind; intro). apply yields_ret. do 4 eexists. reflexivity.
    - intros ws (a' & b & d & e & ->). apply yields_ret. exists a', b, d, e. reflexivity.
  Qed.
End Words.

(** ** Files *)
Section FileProofs.
  Variable S : PF.
  Hypothesis HS : pf_n S < 2 ^ 256.
  Lemma pow_256_32 : 256 ^ Z.of_nat 32 = 2 ^ 256.
  Proof. reflexivity. Qed.
  Lemma repr_rng (x : S) : 0 <= toZ x < 256 ^ Z.of_nat 32.
  Proof. rewrite pow_256_32. pose proof (toZ_range S x). lia. Qed.
  Lemma to_repr_length (x : S) : length (to_repr x) = 32%nat.
  Proof. apply le_length. Qed.
  Lemma from_to_repr (x : S) : from_repr (to_repr x) = Some x.
  Proof.
    unfold from_repr, to_repr. rewrite leval_le by apply repr_rng. pose proof (toZ_range S x).
    rewrite (proj2 (Z.ltb_lt _ _)) by lia. now rewrite ofZ_toZ.
  Qed.
  Lemma from_repr_inv b (x : S) : Forall byte b -> length b = 32%nat -> from_repr b = Some x -> b = to_repr x.
  Proof.
    intros Hb L. unfold from_repr, to_repr. destruct (Z.ltb_spec (leval b) (pf_n S)) as [H|]; [|discriminate]. intros [= <-].
    pose proof (leval_bounds b Hb) as [B0 _]. rewrite toZ_small by lia. rewrite <- L. symmetry. now apply le_leval.
  Qed.
  Lemma load_loop_write : forall (l : list S) rest fuel, (length rest < 32)%nat -> (length l <= fuel)%nat ->
    load_loop fuel (write_instances l ++ rest) = Some l.
  Proof.
    induction l as [|x l IH]; intros rest fuel Hr Hf.
    - cbn [write_instances flat_map app]. destruct fuel; [reflexivity|]. cbn [load_loop]. destruct (Nat.leb_spec 32 (length rest)); [lia|reflexivity].
    - destruct fuel as [|fuel]; [cbn in Hf; lia|]. cbn [load_loop]. unfold write_instances. cbn [flat_map]. fold (write_instances l).
      rewrite <- app_assoc. rewrite (proj2 (Nat.leb_le 32 _)) by (rewrite app_length, to_repr_length; lia).
      rewrite firstn_app_l by apply to_repr_length. rewrite skipn_app_l by apply to_repr_length. rewrite from_to_repr.
      rewrite IH by (cbn in Hf; lia). reflexivity.
  Qed.
  Lemma write_length (l : list S) : length (write_instances l) = (32 * length l)%nat.
  Proof. induction l as [|x l IH]; [reflexivity|]. unfold write_instances. cbn [flat_map]. fold (write_instances l). rewrite app_length, to_repr_length, IH. cbn [length]. lia. Qed.
  Lemma load_write (l : list S) rest : (length rest < 32)%nat -> load_instances (write_instances l ++ rest) = Some [[l]].
  Proof.
    intro Hr. unfold load_instances. rewrite load_loop_write; [reflexivity|exact Hr|]. rewrite app_length, write_length. lia.
  Qed.
  Lemma load_loop_inv : forall fuel buf (l : list S), Forall byte buf -> (length buf <= 32 * fuel + 31)%nat -> load_loop fuel buf = Some l ->
    exists rest, buf = write_instances l ++ rest /\ (length rest < 32)%nat.
  Proof.
    induction fuel as [|fuel IH]; intros buf l Hb Hf E; cbn [load_loop] in E.
    - injection E as <-. exists buf. split; [reflexivity|lia].
    - destruct (Nat.leb_spec 32 (length buf)) as [H|H].
      + destruct (from_repr (firstn 32 buf)) as [x|] eqn:E1; [|discriminate].
        destruct (load_loop fuel (skipn 32 buf)) as [r|] eqn:E2; [|discriminate]. injection E as <-.
        rewrite <- (firstn_skipn 32 buf) in Hb. apply Forall_app in Hb as [Hb1 Hb2].
        destruct (IH _ _ Hb2 ltac:(rewrite skipn_length; lia) E2) as (rest & Er & Lr).
        exists rest. split; [|exact Lr]. unfold write_instances. cbn [flat_map]. fold (write_instances r).
        rewrite <- app_assoc, <- Er, <- (from_repr_inv _ _ Hb1 (firstn_length_le _ H) E1). symmetry. apply firstn_skipn.
      + injection E as <-. exists buf. split; [reflexivity|exact H].
  Qed.
  Lemma load_inv buf r : Forall byte buf -> load_instances buf = Some r ->
    exists (l : list S) rest, r = [[l]] /\ buf = write_instances l ++ rest /\ (length rest < 32)%nat.
  Proof.
    intros Hb E. unfold load_instances in E. destruct (load_loop (length buf) buf) as [l|] eqn:E1; [|discriminate]. injection E as <-.
    destruct (load_loop_inv (length buf) buf l Hb ltac:(lia) E1) as (rest & H). exists l, rest. split; [reflexivity|exact H].
  Qed.
End FileProofs.

(** The 32-byte little-endian words of a file. *)
Fixpoint file_words (n : nat) (buf : list Z) : list Z :=
  match n with O => [] | S n => leval (firstn 32 buf) :: file_words n (skipn 32 buf) end.
Lemma file_words_app {S : PF} (HS : pf_n S < 2 ^ 256) n (x : S) rest : file_words (Datatypes.S n) (to_repr x ++ rest) = toZ x :: file_words n rest.
Proof.
  cbn [file_words]. rewrite firstn_app_l by apply to_repr_length. rewrite skipn_app_l by apply to_repr_length.
  unfold to_repr. rewrite leval_le by (now apply repr_rng). reflexivity.
Qed.
Lemma file_words_list {S : PF} (HS : pf_n S < 2 ^ 256) (l : list S) : file_words (length l) (flat_map to_repr l) = map (@toZ S) l.
Proof. induction l as [|x l IH]; [reflexivity|]. cbn [length flat_map map]. rewrite (file_words_app HS). now rewrite IH. Qed.
Lemma final_pair_words {S W : PF} (HS : pf_n S < 2 ^ 256) (HW : pf_n W < 2 ^ 256) (P Q : point W) (ins : list S) :
  file_words (4 + length ins) (write_final_pair P Q ins) =
  [fst (encode P); snd (encode P); fst (encode Q); snd (encode Q)] ++ map (@toZ S) ins.
Proof.
  unfold write_final_pair. cbn [Nat.add]. rewrite !(file_words_app HW), (file_words_list HS).
  destruct P, Q; cbn [encode fst snd app]; rewrite ?(toZ_0 W); reflexivity.
Qed.

(** ** File names *)
Section NameProofs.
  Local Open Scope string_scope.
  (** the last character of a string is a digit *)
  Fixpoint ends_digit (s : string) : bool :=
    match s with "" => false | String a "" => is_digit a | String _ s => ends_digit s end.
  Lemma ends_digit_app a b : b <> "" -> ends_digit (a ++ b) = ends_digit b.
  Proof.
    intro Hb. induction a as [|x a IH]; [reflexivity|]. cbn [String.append ends_digit]. rewrite IH.
    destruct (a ++ b) eqn:E; [|reflexivity]. destruct a; [|discriminate]. cbn in E. congruence.
  Qed.
  Lemma digits_end s : all_digits s = true -> s <> "" -> ends_digit s = true.
  Proof.
    induction s as [|a s IH]; intros H Hn; [congruence|]. cbn [all_digits] in H. apply andb_true_iff in H as [H1 H2].
    cbn [ends_digit]. destruct s; [exact H1|]. apply IH; [exact H2|discriminate].
  Qed.
  Lemma name_split (n1 : string) : forall n2 d1 d2, ends_digit n1 = false -> ends_digit n2 = false ->
    all_digits d1 = true -> all_digits d2 = true -> n1 ++ d1 = n2 ++ d2 -> n1 = n2 /\ d1 = d2.
  Proof.
    intros n2 d1 d2 E1 E2 D1 D2 E. apply sapp_split in E as [[y [Hx Hy]]|[y [Hx Hy]]].
    - destruct y as [|a y]; [rewrite sapp_nil_r in Hx; cbn in Hy; subst; auto|exfalso]. subst n2 d1. apply digits_app_inv in D1 as [D1 _].
      rewrite ends_digit_app in E2 by discriminate. rewrite digits_end in E2; [discriminate|exact D1|discriminate].
    - destruct y as [|a y]; [rewrite sapp_nil_r in Hx; cbn in Hy; subst; auto|exfalso]. subst n1 d2. apply digits_app_inv in D2 as [D2 _].
      rewrite ends_digit_app in E1 by discriminate. rewrite digits_end in E1; [discriminate|exact D2|discriminate].
  Qed.
  Lemma sapp_length (a b : string) : String.length (a ++ b) = (String.length a + String.length b)%nat.
  Proof. induction a as [|x a IH]; cbn; [reflexivity|]. now rewrite IH. Qed.
  Lemma tail_inv (n1 n2 d1 d2 e : string) : n1 ++ d1 ++ e = n2 ++ d2 ++ e -> n1 ++ d1 = n2 ++ d2.
  Proof.
    rewrite <- !sapp_assoc. generalize (n1 ++ d1) (n2 ++ d2). clear. intros a b E.
    assert (L : String.length a = String.length b).
    { apply (f_equal String.length) in E. rewrite !sapp_length in E. lia. }
    revert b L E. induction a as [|x a IH]; intros [|y b] L E; cbn in *; try discriminate; [reflexivity|].
    injection L as L. injection E as -> E. f_equal. now apply IH.
  Qed.
  Lemma file_inj prefix n1 i1 n2 i2 : ends_digit n1 = false -> ends_digit n2 = false ->
    prefix ++ n1 ++ fmt_nat i1 ++ ".data" = prefix ++ n2 ++ fmt_nat i2 ++ ".data" -> n1 = n2 /\ i1 = i2.
  Proof.
    intros E1 E2 E. apply sapp_inv_head, tail_inv, name_split in E as [-> E]; auto using fmt_nat_digits. split; [reflexivity|now apply fmt_nat_inj].
  Qed.
End NameProofs.

(** ** Handing proofs over *)
Section HandingProofs.
  Variable F : Fld.
  Variables Params Vk : Type.
  Local Notation given := (given F Params Vk).
  Local Notation setup := (setup F Params Vk).
  (** Specification: the proofs of a circuit, in order, with their keys. *)
  Definition keyed (name : string) (ps : list (proof_pair F)) : list (given_proof F) :=
    map (fun ip => GP (pp_instances (snd ip)) (pp_transcript (snd ip)) (proof_key name (fst ip))) (combine (seq 0 (length ps)) ps).

  Lemma mapM_map {A B C} (f : A -> option B) (g : C -> A) l : mapM f (map g l) = mapM (fun x => f (g x)) l.
  Proof. induction l as [|x l IH]; [reflexivity|]. cbn [map mapM]. now rewrite IH. Qed.
  Lemma mapM_ext_in {A B} (f g : A -> option B) l : (forall x, In x l -> f x = g x) -> mapM f l = mapM g l.
  Proof.
    induction l as [|x l IH]; intro H; [reflexivity|]. cbn [mapM]. rewrite (H x (or_introl eq_refl)), IH; [reflexivity|]. intros y Hy. apply H. now right.
  Qed.
  Lemma mapM_total {A B} (f : A -> B) l : mapM (fun x => Some (f x)) l = Some (map f l).
  Proof. induction l as [|x l IH]; [reflexivity|]. cbn [mapM map]. now rewrite IH. Qed.
  Lemma mapM_nth {A} (l : list A) : forall n k, (k + n <= length l)%nat -> mapM (nth_error l) (seq k n) = Some (firstn n (skipn k l)).
  Proof.
    induction n as [|n IH]; intros k H; [reflexivity|]. cbn [seq mapM].
    destruct (nth_error l k) as [x|] eqn:E; [|apply nth_error_None in E; lia]. rewrite IH by lia.
    f_equal. apply nth_error_split in E as (l1 & l2 & -> & <-). rewrite !skipn_app.
    rewrite (skipn_all2 l1 (n := length l1)), (skipn_all2 l1 (n := S (length l1))) by lia. cbn [app]. replace (S (length l1) - length l1)%nat with 1%nat by lia. rewrite Nat.sub_diag. reflexivity.
  Qed.
  Lemma mapM_nth_short {A} (l : list A) n : (length l < n)%nat -> mapM (nth_error l) (seq 0 n) = None.
  Proof.
    intro H. assert (G : forall n k, (k <= length l)%nat -> (length l < k + n)%nat -> mapM (nth_error l) (seq k n) = None).
    { clear. induction n as [|n IH]; intros k H1 H2; [lia|]. cbn [seq mapM]. destruct (nth_error l k) as [x|] eqn:E; [|reflexivity].
      assert (k < length l)%nat by (apply nth_error_Some; congruence). rewrite IH by lia. reflexivity. }
    apply G; lia.
  Qed.
  Lemma info_false (s : setup) : circuit_info false s =
    if (s_nproofs s <=? length (s_proofs s))%nat
    then Some (mkOut (s_name s) (s_params s) (s_vk s) (map pp_instances (firstn (s_nproofs s) (s_proofs s))) (map pp_transcript (firstn (s_nproofs s) (s_proofs s))) (s_nproofs s))
    else None.
  Proof.
    unfold circuit_info. rewrite (mapM_ext_in _ (nth_error (s_proofs s))) by reflexivity. destruct (Nat.leb_spec (s_nproofs s) (length (s_proofs s))) as [H|H].
    - rewrite mapM_nth by lia. reflexivity.
    - now rewrite mapM_nth_short by exact H.
  Qed.
  Lemma combine_pairs (ps : list (proof_pair F)) : map (fun it => PP (fst it) (snd it)) (combine (map pp_instances ps) (map pp_transcript ps)) = ps.
  Proof. induction ps as [|[i t] ps IH]; [reflexivity|]. cbn [map combine fst snd pp_instances pp_transcript]. now rewrite IH. Qed.
  Lemma mapM_indexed {A B} (f : nat -> A -> B) (l : list A) :
    mapM (fun i => do p <- nth_error l i; Some (f i p)) (seq 0 (length l)) = Some (map (fun ip => f (fst ip) (snd ip)) (combine (seq 0 (length l)) l)).
  Proof.
    assert (G : forall r pre, l = pre ++ r -> mapM (fun i => do p <- nth_error l i; Some (f i p)) (seq (length pre) (length r)) =
      Some (map (fun ip => f (fst ip) (snd ip)) (combine (seq (length pre) (length r)) r))).
    { induction r as [|x r IH]; intros pre E; [reflexivity|]. cbn [length seq mapM combine map fst snd].
      assert (Ex : nth_error l (length pre) = Some x) by (rewrite E, nth_error_app2, Nat.sub_diag by lia; reflexivity). rewrite Ex.
      specialize (IH (pre ++ [x])). rewrite <- app_assoc, app_length, Nat.add_1_r in IH. now rewrite (IH E). }
    exact (G l [] eq_refl).
  Qed.
  Lemma synthesized_of name (ps : Params) (vk : Vk) proofs :
    synthesized (mkVC name ps vk proofs (length proofs)) = Some (mkGiven name ps vk (keyed name proofs)).
  Proof. unfold synthesized. cbn [v_proofs v_nproofs v_name]. rewrite mapM_indexed with (f := fun i p => GP (pp_instances p) (pp_transcript p) (proof_key name i)). reflexivity. Qed.
  Lemma calculated_of name (ps : Params) (vk : Vk) (proofs : list (proof_pair F)) n :
    calculated (mkOut name ps vk (map pp_instances proofs) (map pp_transcript proofs) n) = Some (mkGiven name ps vk (keyed name proofs)).
  Proof.
    unfold calculated. cbn [o_proofs o_instances o_name o_params o_vk]. rewrite map_length.
    assert (G : forall r pre, proofs = pre ++ r ->
      mapM (fun ii => do t <- nth_error (map pp_transcript proofs) (fst ii); Some (GP (snd ii) t (proof_key name (fst ii))))
        (combine (seq (length pre) (length r)) (map pp_instances r)) =
      Some (map (fun ip => GP (pp_instances (snd ip)) (pp_transcript (snd ip)) (proof_key name (fst ip))) (combine (seq (length pre) (length r)) r))).
    { induction r as [|x r IH]; intros pre E; [reflexivity|]. cbn [length seq map combine mapM fst snd].
      assert (Ex : nth_error (map pp_transcript proofs) (length pre) = Some (pp_transcript x))
        by (rewrite E, map_app, nth_error_app2, map_length, Nat.sub_diag by (rewrite map_length; lia); reflexivity).
      rewrite Ex. specialize (IH (pre ++ [x])). rewrite <- app_assoc, app_length, Nat.add_1_r in IH. now rewrite (IH E). }
    pose proof (G proofs [] eq_refl) as G'. cbn [length] in G'. rewrite G'. reflexivity.
  Qed.
  Definition handed (c : create_proof F Params Vk) : given :=
    mkGiven (c_name c) (c_params c) (c_vk c) (keyed (c_name c) (firstn (c_nproofs c) (c_template_proofs c))).
  Lemma create_call_spec (cs : list (create_proof F Params Vk)) :
    create_call cs = if forallb (fun c => c_nproofs c <=? length (c_template_proofs c))%nat cs then Some (map handed cs, map handed cs) else None.
  Proof.
    unfold create_call, new_verify_circuit_info. rewrite mapM_map. set (o := fun c : create_proof F Params Vk =>
      mkOut (c_name c) (c_params c) (c_vk c) (map pp_instances (firstn (c_nproofs c) (c_template_proofs c))) (map pp_transcript (firstn (c_nproofs c) (c_template_proofs c))) (c_nproofs c)).
    assert (E : mapM (fun c => circuit_info false (mkSetup (c_name c) (c_params c) (c_vk c) (c_template_proofs c) (c_nproofs c))) cs =
      if forallb (fun c => c_nproofs c <=? length (c_template_proofs c))%nat cs then Some (map o cs) else None).
    { induction cs as [|c cs IH]; [reflexivity|]. cbn [mapM forallb map]. rewrite info_false. cbn [s_nproofs s_proofs s_name s_params s_vk].
      destruct (c_nproofs c <=? length (c_template_proofs c))%nat; [|reflexivity]. rewrite IH. cbn [andb]. destruct (forallb _ cs); reflexivity. }
    rewrite E. destruct (forallb _ cs) eqn:Ef; [|reflexivity].
    rewrite !mapM_map. rewrite (mapM_ext_in _ (fun c => Some (handed c))).
    - rewrite (mapM_ext_in (fun x => calculated (o x)) (fun c => Some (handed c))).
      + rewrite mapM_total. reflexivity.
      + intros c _. unfold o. apply calculated_of.
    - intros c Hc. rewrite forallb_forall in Ef. specialize (Ef c Hc). apply Nat.leb_le in Ef. unfold o, circuit_of. cbn [o_name o_params o_vk o_instances o_proofs o_nproofs].
      rewrite combine_pairs. rewrite <- (firstn_length_le (c_template_proofs c) Ef) at 2. apply synthesized_of.
  Qed.
  Lemma info_true (s : setup) : circuit_info true s =
    match s_nproofs s, s_proofs s with
    | O, _ => Some (mkOut (s_name s) (s_params s) (s_vk s) [] [] 0)
    | _, p :: _ => Some (mkOut (s_name s) (s_params s) (s_vk s) (repeat (pp_instances p) (s_nproofs s)) (repeat (pp_transcript p) (s_nproofs s)) (s_nproofs s))
    | _, [] => None
    end.
  Proof.
    unfold circuit_info. destruct (s_nproofs s) as [|n] eqn:En; [reflexivity|]. destruct (s_proofs s) as [|p l]; [reflexivity|].
    rewrite (mapM_ext_in _ (fun _ => Some p)) by reflexivity. rewrite mapM_total. rewrite !map_map.
    assert (R : forall {A} (a : A) m k, map (fun _ => a) (seq k m) = repeat a m) by (intros A a; induction m; intro k; cbn; [reflexivity|now rewrite IHm]).
    now rewrite !R.
  Qed.
End HandingProofs.
