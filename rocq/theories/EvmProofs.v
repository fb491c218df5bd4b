(** Facts about the contract's library functions. *)
From Coq Require Import ZArith NArith Lia List Bool Znumtheory Ring Field.
From Verif Require Import Util Algebra PField Bn254 Bn254Prime Primality Curve CurveAssoc Bn254Curve Bytes Evm.
Import ListNotations.
Local Open Scope Z_scope.

(** * Byte reversal *)
Lemma testbit_high v i : 0 <= v < 2 ^ 256 -> 256 <= i -> Z.testbit v i = false.
Proof.
  intros H Hi. destruct (Z.eq_dec v 0) as [->|Hv]; [apply Z.bits_0|].
  apply Z.bits_above_log2; [lia|]. apply Z.lt_le_trans with 256; [|exact Hi].
  apply Z.log2_lt_pow2; lia.
Qed.
Lemma word_by_bits v : 0 <= v -> (forall i, 256 <= i -> Z.testbit v i = false) -> v < 2 ^ 256.
Proof.
  intros H Hb. destruct (Z.eq_dec v 0) as [->|Hv]; [apply Z.pow_pos_nonneg; lia|].
  apply Z.log2_lt_pow2; [lia|]. destruct (Z.lt_ge_cases (Z.log2 v) 256) as [L|L]; [exact L|].
  specialize (Hb _ L). rewrite Z.bit_log2 in Hb by lia. discriminate.
Qed.
Definition range256 : list Z := map Z.of_nat (seq 0 256).
Lemma in_range256 i : 0 <= i < 256 -> In i range256.
Proof. intro H. apply in_map_iff. exists (Z.to_nat i). split; [lia|]. apply in_seq. lia. Qed.
Lemma range256_all P : forallb P range256 = true -> forall i, 0 <= i < 256 -> P i = true.
Proof. intros H i Hi. apply (proj1 (forallb_forall _ _) H), in_range256, Hi. Qed.

Definition swap (s mh ml v : Z) : Z := Z.lor (shr (Z.land v mh) s) (shl (Z.land v ml) s).
(** The masks select, for every bit, the bit at distance [s] on the proper side. *)
Definition swap_masks (s mh ml : Z) : bool :=
  forallb (fun i =>
    if Z.testbit i (Z.log2 s) then negb (Z.testbit mh (i + s)) && Z.testbit ml (i - s) && (Z.lxor i s =? i - s) && (s <=? i)
    else Z.testbit mh (i + s) && ((i <? s) || negb (Z.testbit ml (i - s))) && (Z.lxor i s =? i + s)) range256.
Lemma shl_testbit v s i : 0 <= s -> 0 <= i < 256 -> Z.testbit (shl v s) i = (s <=? i) && Z.testbit v (i - s).
Proof.
  intros Hs Hi. unfold shl. rewrite Z.mod_pow2_bits_low by lia. rewrite Z.shiftl_spec by lia.
  destruct (Z.leb_spec s i); [reflexivity|]. now rewrite Z.testbit_neg_r by lia.
Qed.
Lemma swap_spec s mh ml v i : 0 < s -> swap_masks s mh ml = true -> 0 <= i < 256 ->
  Z.testbit (swap s mh ml v) i = Z.testbit v (Z.lxor i s).
Proof.
  intros Hs HM Hi. pose proof (range256_all _ HM i Hi) as H. cbv beta in H.
  unfold swap. rewrite Z.lor_spec, shl_testbit by lia. unfold shr. rewrite Z.shiftr_spec, !Z.land_spec by lia.
  destruct (Z.testbit i (Z.log2 s)); rewrite ?andb_true_iff in H.
  - destruct H as [[[H1 H2] H3] H4]. apply negb_true_iff in H1. apply Z.eqb_eq in H3. rewrite H1, H2, H3, H4.
    now rewrite !andb_false_r, andb_true_r.
  - destruct H as [[H1 H2] H3]. apply Z.eqb_eq in H3. rewrite H1, H3, andb_true_r.
    apply orb_true_iff in H2. destruct H2 as [H2|H2].
    + apply Z.ltb_lt in H2. destruct (Z.leb_spec s i); [lia|]. now rewrite andb_false_l, orb_false_r.
    + apply negb_true_iff in H2. now rewrite H2, !andb_false_r, orb_false_r.
Qed.
Lemma shl_word v s : 0 <= shl v s < 2 ^ 256.
Proof. apply Z.mod_pos_bound. apply Z.pow_pos_nonneg; lia. Qed.
Lemma shr_nonneg v s : 0 <= v -> 0 <= shr v s.
Proof. intro H. now apply Z.shiftr_nonneg. Qed.
Lemma lor_word u v : 0 <= u < 2 ^ 256 -> 0 <= v < 2 ^ 256 -> 0 <= Z.lor u v < 2 ^ 256.
Proof.
  intros Hu Hv. assert (0 <= Z.lor u v) by (apply Z.lor_nonneg; lia). split; [lia|].
  apply word_by_bits; [lia|]. intros i Hi. now rewrite Z.lor_spec, !testbit_high.
Qed.
Lemma shr_word v s : 0 <= s -> 0 <= v < 2 ^ 256 -> 0 <= shr v s < 2 ^ 256.
Proof.
  intros Hs H. unfold shr. rewrite Z.shiftr_div_pow2 by lia.
  assert (0 < 2 ^ s) by (apply Z.pow_pos_nonneg; lia). split; [apply Z.div_pos; lia|].
  apply Z.le_lt_trans with v; [|lia]. apply Z.div_le_upper_bound; nia.
Qed.
Lemma land_word v m : 0 <= v < 2 ^ 256 -> 0 <= Z.land v m < 2 ^ 256.
Proof.
  intros H. assert (0 <= Z.land v m) by (apply Z.land_nonneg; lia). split; [lia|].
  apply word_by_bits; [lia|]. intros i Hi. now rewrite Z.land_spec, testbit_high.
Qed.
Lemma swap_word s mh ml v : 0 <= s -> 0 <= v < 2 ^ 256 -> 0 <= swap s mh ml v < 2 ^ 256.
Proof. intros Hs H. apply lor_word; [apply shr_word; [exact Hs|apply land_word, H]|apply shl_word]. Qed.

Lemma halves_spec v i : 0 <= v < 2 ^ 256 -> 0 <= i < 256 ->
  Z.testbit (Z.lor (shr v 128) (shl v 128)) i = Z.testbit v (Z.lxor i 128).
Proof.
  intros Hv Hi. rewrite Z.lor_spec, shl_testbit by lia. unfold shr. rewrite Z.shiftr_spec by lia.
  assert (HM : forallb (fun i => if 128 <=? i then Z.lxor i 128 =? i - 128 else Z.lxor i 128 =? i + 128) range256 = true) by (vm_compute; reflexivity).
  pose proof (range256_all _ HM i Hi) as H. cbv beta in H.
  destruct (Z.leb_spec 128 i); apply Z.eqb_eq in H; rewrite H.
  - rewrite testbit_high by (try exact Hv; lia). reflexivity.
  - now rewrite andb_false_l, orb_false_r.
Qed.
Definition s8 := swap 8 0xFF00FF00FF00FF00FF00FF00FF00FF00FF00FF00FF00FF00FF00FF00FF00FF00 0x00FF00FF00FF00FF00FF00FF00FF00FF00FF00FF00FF00FF00FF00FF00FF00FF.
Definition s16 := swap 16 0xFFFF0000FFFF0000FFFF0000FFFF0000FFFF0000FFFF0000FFFF0000FFFF0000 0x0000FFFF0000FFFF0000FFFF0000FFFF0000FFFF0000FFFF0000FFFF0000FFFF.
Definition s32 := swap 32 0xFFFFFFFF00000000FFFFFFFF00000000FFFFFFFF00000000FFFFFFFF00000000 0x00000000FFFFFFFF00000000FFFFFFFF00000000FFFFFFFF00000000FFFFFFFF.
Definition s64 := swap 64 0xFFFFFFFFFFFFFFFF0000000000000000FFFFFFFFFFFFFFFF0000000000000000 0x0000000000000000FFFFFFFFFFFFFFFF0000000000000000FFFFFFFFFFFFFFFF.
Lemma fr_reverse_swaps v : fr_reverse v = Z.lor (shr (s64 (s32 (s16 (s8 v)))) 128) (shl (s64 (s32 (s16 (s8 v)))) 128).
Proof. reflexivity. Qed.
Lemma fr_reverse_word v : 0 <= v < 2 ^ 256 -> 0 <= fr_reverse v < 2 ^ 256.
Proof.
  intro H. rewrite fr_reverse_swaps. apply lor_word; [apply shr_word; [lia|]|apply shl_word].
  repeat (apply (swap_word _ _ _ _); [lia|]). exact H.
Qed.
Lemma fr_reverse_testbit v i : 0 <= v < 2 ^ 256 -> 0 <= i < 256 ->
  Z.testbit (fr_reverse v) i = Z.testbit v (Z.lxor i 248).
Proof.
  intros Hv Hi. rewrite fr_reverse_swaps.
  rewrite halves_spec; [|repeat (apply (swap_word _ _ _ _); [lia|]); exact Hv|exact Hi].
  assert (HM : forallb (fun i =>
      (0 <=? Z.lxor i 128) && (Z.lxor i 128 <? 256) &&
      (0 <=? Z.lxor (Z.lxor i 128) 64) && (Z.lxor (Z.lxor i 128) 64 <? 256) &&
      (0 <=? Z.lxor (Z.lxor (Z.lxor i 128) 64) 32) && (Z.lxor (Z.lxor (Z.lxor i 128) 64) 32 <? 256) &&
      (0 <=? Z.lxor (Z.lxor (Z.lxor (Z.lxor i 128) 64) 32) 16) && (Z.lxor (Z.lxor (Z.lxor (Z.lxor i 128) 64) 32) 16 <? 256) &&
      (Z.lxor (Z.lxor (Z.lxor (Z.lxor (Z.lxor i 128) 64) 32) 16) 8 =? Z.lxor i 248)) range256 = true) by (vm_compute; reflexivity).
  pose proof (range256_all _ HM i Hi) as H. cbv beta in H. rewrite !andb_true_iff, !Z.leb_le, !Z.ltb_lt, Z.eqb_eq in H.
  destruct H as [[[[[[[[A1 A2] B1] B2] C1] C2] D1] D2] E].
  unfold s64 at 1. rewrite swap_spec; [|lia|vm_compute; reflexivity|lia].
  unfold s32 at 1. rewrite swap_spec; [|lia|vm_compute; reflexivity|lia].
  unfold s16 at 1. rewrite swap_spec; [|lia|vm_compute; reflexivity|lia].
  unfold s8 at 1. rewrite swap_spec; [|lia|vm_compute; reflexivity|lia].
  now rewrite E.
Qed.

Lemma nth_le n z j : (j < n)%nat -> nth j (le n z) 0 = (z / 256 ^ Z.of_nat j) mod 256.
Proof.
  revert z j; induction n; intros z j H; [lia|]. destruct j as [|j]; cbn [le nth].
  - now rewrite Z.pow_0_r, Z.div_1_r.
  - rewrite IHn by lia. rewrite Zdiv.Zdiv_Zdiv by (try lia; pose proof (pow256_pos j); lia).
    now rewrite pow256_S.
Qed.
Lemma byte_testbit z j k : 0 <= k < 8 -> Z.testbit ((z / 256 ^ Z.of_nat j) mod 256) k = Z.testbit z (8 * Z.of_nat j + k).
Proof.
  intro Hk. change 256 with (2 ^ 8). rewrite Z.mod_pow2_bits_low by lia. rewrite <- Z.pow_mul_r by lia.
  rewrite Z.div_pow2_bits by lia. f_equal. lia.
Qed.
Lemma byte_eq u v : 0 <= u < 256 -> 0 <= v < 256 -> (forall k, 0 <= k < 8 -> Z.testbit u k = Z.testbit v k) -> u = v.
Proof.
  intros Hu Hv H. apply Z.bits_inj'. intros k Hk. destruct (Z.lt_ge_cases k 8) as [L|L]; [apply H; lia|].
  rewrite <- (Z.mod_small u (2 ^ 8)), <- (Z.mod_small v (2 ^ 8)) by (cbn; lia).
  now rewrite !Z.mod_pow2_bits_high by lia.
Qed.
Lemma fr_reverse_bytes v : 0 <= v < 2 ^ 256 -> le 32 (fr_reverse v) = rev (le 32 v).
Proof.
  intro Hv. apply (nth_ext _ _ 0 0).
  - now rewrite rev_length, !le_length.
  - intros j Hj. rewrite le_length in Hj. rewrite rev_nth by (rewrite le_length; exact Hj). rewrite le_length.
    rewrite !nth_le by lia. apply byte_eq; try (apply Z.mod_pos_bound; lia).
    intros k Hk. rewrite !byte_testbit by lia. rewrite fr_reverse_testbit by lia.
    f_equal.
    assert (HM : forallb (fun j => forallb (fun k => Z.lxor (8 * Z.of_nat j + Z.of_nat k) 248 =? 8 * Z.of_nat (32 - S j) + Z.of_nat k) (seq 0 8)) (seq 0 32) = true) by (vm_compute; reflexivity).
    pose proof (proj1 (forallb_forall _ _) HM j ltac:(apply in_seq; lia)) as H1. cbv beta in H1.
    pose proof (proj1 (forallb_forall _ _) H1 (Z.to_nat k) ltac:(apply in_seq; lia)) as H2. cbv beta in H2.
    rewrite Z2Nat.id in H2 by lia. now apply Z.eqb_eq.
Qed.
Lemma fr_reverse_be l : Forall byte l -> length l = 32%nat -> fr_reverse (be l) = leval l.
Proof.
  intros Hl HL. assert (Hr : Forall byte (rev l)) by (apply Forall_rev; exact Hl).
  assert (HLr : length (rev l) = 32%nat) by (now rewrite rev_length).
  pose proof (leval_bounds _ Hr) as B. rewrite HLr in B. change (256 ^ Z.of_nat 32) with (2 ^ 256) in B.
  pose proof (fr_reverse_bytes (be l) B) as E. unfold be in E at 2.
  rewrite <- HLr in E at 2. rewrite (le_leval _ Hr), rev_involutive in E.
  transitivity (leval (le 32 (fr_reverse (be l)))); [|now rewrite E]. symmetry. apply leval_le. change (256 ^ Z.of_nat 32) with (2 ^ 256). now apply fr_reverse_word.
Qed.

(** * Scalar arithmetic, against any model of the field of order [q_mod] *)
Section Scalars.
  Variable S : PF.
  Hypothesis HS : pf_n S = q_mod.
  Add Field SF : (f_th S).

  Lemma q_pos : 0 < q_mod.
  Proof. reflexivity. Qed.
  Lemma ofZ_modq z : @ofZ S (z mod q_mod) = ofZ z.
  Proof. apply ofZ_eq. rewrite HS. now apply Z.mod_mod. Qed.
  Lemma fr_add_ok l r : ofZ (fr_add l r) = fadd (@ofZ S l) (ofZ r).
  Proof. unfold fr_add, addmod. rewrite ofZ_modq. apply ofZ_add. Qed.
  Lemma fr_mul_ok l r : ofZ (fr_mul l r) = fmul (@ofZ S l) (ofZ r).
  Proof. unfold fr_mul, mulmod. rewrite ofZ_modq. apply ofZ_mul. Qed.
  Lemma fr_mul_add_ok l r c : ofZ (fr_mul_add l r c) = fadd (fmul (@ofZ S l) (ofZ r)) (ofZ c).
  Proof. change (fr_mul_add l r c) with (fr_add (fr_mul l r) c). now rewrite fr_add_ok, fr_mul_ok. Qed.
  Lemma fr_sub_ok ck l r : r <= q_mod -> exists z, fr_sub ck l r = Some z /\ 0 <= z < q_mod /\ ofZ z = fsub (@ofZ S l) (ofZ r).
  Proof.
    intro Hr. unfold fr_sub, sub. destruct (Z.leb_spec r q_mod); [|lia]. eexists. split; [reflexivity|].
    split; [apply Z.mod_pos_bound, q_pos|]. unfold addmod. rewrite ofZ_modq, ofZ_add, ofZ_sub.
    replace (@ofZ S q_mod) with (@f0 S). { ring. }
    rewrite <- (ofZ_0 S). apply ofZ_eq. rewrite HS, Z.mod_same by discriminate. reflexivity.
  Qed.
  Lemma ofZ_pow a (e : nat) : @ofZ S (a ^ Z.of_nat e) = fpow (ofZ a) e.
  Proof.
    induction e as [|e IH].
    - cbn [fpow Z.of_nat]. rewrite Z.pow_0_r. apply ofZ_1.
    - rewrite Nat2Z.inj_succ, Z.pow_succ_r by lia. rewrite ofZ_mul, IH. reflexivity.
  Qed.
  Lemma fr_pow_ok a e : 0 <= e -> @ofZ S (fr_pow a e) = fpow (ofZ a) (Z.to_nat e).
  Proof. intro He. unfold fr_pow, modexp. rewrite ofZ_modq. rewrite <- ofZ_pow. now rewrite Z2Nat.id. Qed.
  Lemma prime_q : prime q_mod.
  Proof. rewrite <- HS. apply pf_prime. Qed.
  Lemma fr_invert_ok b : @ofZ S b <> f0 -> fmul (ofZ b) (@ofZ S (fr_invert b)) = f1.
  Proof.
    intro Hb. unfold fr_invert, fr_pow, modexp. rewrite ofZ_modq. rewrite <- ofZ_mul, <- Z.pow_succ_r by discriminate.
    replace (Z.succ (q_mod - 2)) with (q_mod - 1) by lia.
    rewrite <- (ofZ_1 S). apply ofZ_eq. rewrite HS.
    rewrite fermat; [symmetry; apply Z.mod_small; split; reflexivity || discriminate|exact prime_q|].
    intros [k Hk]. apply Hb. rewrite <- (ofZ_0 S). apply ofZ_eq. rewrite HS, Hk, Z.mod_mul by discriminate. reflexivity.
  Qed.
  Lemma fr_div_ok a b : @ofZ S b <> f0 -> exists z, fr_div a b = Some z /\ 0 <= z < q_mod /\ ofZ z = fdiv (@ofZ S a) (ofZ b).
  Proof.
    intro Hb. unfold fr_div. destruct (Z.eqb_spec b 0) as [->|H0].
    { exfalso. apply Hb. apply ofZ_0. }
    eexists. split; [reflexivity|]. split; [apply Z.mod_pos_bound, q_pos|].
    unfold mulmod. rewrite ofZ_modq, ofZ_mul.
    pose proof (fr_invert_ok b Hb) as E. apply (div_eq S); [exact Hb|].
    transitivity (fmul (@ofZ S a) (fmul (ofZ b) (ofZ (fr_invert b)))); [ring|]. rewrite E. ring.
  Qed.
  Lemma fr_div_zero a k : exists z, fr_div a (k * q_mod) = (if k =? 0 then None else Some z) /\ z = 0.
  Proof.
    unfold fr_div. destruct (Z.eqb_spec k 0) as [->|Hk]; [exists 0; split; reflexivity|].
    destruct (Z.eqb_spec (k * q_mod) 0) as [E|E]; [exfalso; apply Z.mul_eq_0 in E; destruct E as [E|E]; [contradiction|discriminate]|].
    eexists; split; [reflexivity|]. unfold mulmod, fr_invert, fr_pow, modexp.
    rewrite <- Z.mul_mod_idemp_r, Z.mod_mod by discriminate.
    replace (q_mod - 2) with (Z.succ (q_mod - 3)) by lia. rewrite Z.pow_succ_r by discriminate.
    generalize ((k * q_mod) ^ (q_mod - 3)). intro e. rewrite (Z.mul_comm (k * q_mod) e), Z.mul_assoc.
    rewrite Z.mod_mul by discriminate. now rewrite Z.mul_0_r.
  Qed.
End Scalars.

(** * Points *)
Section Points.
  Variable W : PF.
  Hypothesis HW : pf_n W = p_mod.
  Variable b : W.
  Hypothesis b_nz : b <> f0.
  Add Field WF : (f_th W).

  Lemma decode_on x y P : decode b x y = Some P -> on_curve b P.
  Proof.
    unfold decode. destruct ((x =? 0) && (y =? 0)); [intros [= <-]; exact I|].
    destruct ((x <? pf_n W) && (y <? pf_n W)); [|discriminate].
    destruct (feq_dec _ _) as [E|]; [|discriminate]. intros [= <-]. exact E.
  Qed.
  Lemma decode_encode P : on_curve b P -> decode b (fst (encode P)) (snd (encode P)) = Some P.
  Proof.
    destruct P as [|x y]; [reflexivity|]. cbn [encode fst snd on_curve]. intro H. unfold decode.
    destruct (Z.eqb_spec (toZ x) 0) as [Ex|Ex]; destruct (Z.eqb_spec (toZ y) 0) as [Ey|Ey]; cbn [andb].
    { exfalso. apply toZ_eq0 in Ex. apply toZ_eq0 in Ey. subst. apply b_nz.
      transitivity (fadd (fmul (fmul f0 f0) f0) b); [ring|]. rewrite <- H. ring. }
    all: pose proof (toZ_range W x); pose proof (toZ_range W y);
      destruct (Z.ltb_spec (toZ x) (pf_n W)); [|lia]; destruct (Z.ltb_spec (toZ y) (pf_n W)); [|lia]; cbn [andb];
      rewrite !ofZ_toZ; destruct (feq_dec _ _); [reflexivity|contradiction].
  Qed.
  Lemma encode_decode x y P : 0 <= x -> 0 <= y -> decode b x y = Some P -> encode P = (x, y).
  Proof.
    intros Hx Hy. unfold decode. destruct ((x =? 0) && (y =? 0)) eqn:E0.
    { apply andb_true_iff in E0. rewrite !Z.eqb_eq in E0. destruct E0 as [-> ->]. intros [= <-]. reflexivity. }
    destruct (Z.ltb_spec x (pf_n W)) as [Lx|], (Z.ltb_spec y (pf_n W)) as [Ly|]; cbn [andb]; try discriminate.
    destruct (feq_dec _ _); [|discriminate]; intros [= <-]; cbn [encode]. now rewrite !toZ_small by lia.
  Qed.
  Lemma encode_inj P Q : on_curve b P -> on_curve b Q -> encode P = encode Q -> P = Q.
  Proof. intros HP HQ E. pose proof (decode_encode P HP) as A. rewrite E, (decode_encode Q HQ) in A. congruence. Qed.
  Lemma ecAdd_ok P Q : on_curve b P -> on_curve b Q ->
    ecAdd b (fst (encode P)) (snd (encode P)) (fst (encode Q)) (snd (encode Q)) = Some (encode (padd P Q)).
  Proof. intros HP HQ. unfold ecAdd. now rewrite !decode_encode. Qed.
  Lemma ecMul_ok P s : on_curve b P -> ecMul b (fst (encode P)) (snd (encode P)) s = Some (encode (smul (Z.to_N s) P)).
  Proof. intros HP. unfold ecMul. now rewrite decode_encode. Qed.
  Lemma encode_neg x y : y <> f0 -> @encode W (pneg (Aff x y)) = (toZ x, p_mod - toZ y).
  Proof.
    intro Hy. cbn [pneg encode]. f_equal. rewrite <- (ofZ_toZ W y) at 1. rewrite <- ofZ_opp.
    assert (E : @ofZ W (- toZ y) = ofZ (p_mod - toZ y)).
    { apply ofZ_eq. rewrite HW. replace (p_mod - toZ y) with (- toZ y + 1 * p_mod) by lia. rewrite Z.mod_add by discriminate. reflexivity. }
    rewrite E. apply toZ_small. pose proof (toZ_range W y) as R. rewrite HW in R.
    assert (toZ y <> 0) by (intro H; apply Hy; now apply toZ_eq0). rewrite HW. lia.
  Qed.
  Lemma ecc_sub_ok ck P x y : on_curve b P -> on_curve b (Aff x y) -> y <> f0 ->
    ecc_sub b ck (fst (encode P)) (snd (encode P)) (toZ x) (toZ y) = Some (encode (padd P (pneg (Aff x y)))).
  Proof.
    intros HP HQ Hy. unfold ecc_sub, sub. pose proof (toZ_range W y) as R. rewrite HW in R.
    destruct (Z.leb_spec (toZ y) p_mod); [|lia]. unfold ecc_add.
    pose proof (encode_neg x y Hy) as E. 
    pose proof (ecAdd_ok P (pneg (Aff x y)) HP (pneg_on _ _ _ HQ)) as A. rewrite E in A. exact A.
  Qed.
  Lemma ecc_sub_identity ck ax ay : ecc_sub b ck ax ay 0 0 = None.
  Proof.
    unfold ecc_sub, sub. cbn [Z.leb]. replace (0 <=? p_mod) with true by reflexivity.
    unfold ecc_add, ecAdd. destruct (decode b ax ay) as [P|]; [|reflexivity].
    unfold decode. replace ((0 =? 0) && (p_mod - 0 =? 0)) with false by reflexivity. rewrite HW.
    replace ((0 <? p_mod) && (p_mod - 0 <? p_mod)) with false by reflexivity. reflexivity.
  Qed.
  Lemma ecc_mul_add_ok P s Q : on_curve b P -> on_curve b Q ->
    ecc_mul_add b (fst (encode P)) (snd (encode P)) s (fst (encode Q)) (snd (encode Q)) = Some (encode (padd (smul (Z.to_N s) P) Q)).
  Proof.
    intros HP HQ. unfold ecc_mul_add, ecc_mul_add_. rewrite (ecMul_ok P s HP).
    pose proof (ecAdd_ok _ Q (smul_on _ b (Z.to_N s) P HP) HQ) as A.
    destruct (encode (smul (Z.to_N s) P)) as [x y]. cbn [fst snd] in A. rewrite A.
    destruct (encode (padd (smul (Z.to_N s) P) Q)). reflexivity.
  Qed.
End Points.
