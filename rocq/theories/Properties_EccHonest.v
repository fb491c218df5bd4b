(** C16, the honest prover: scalar multiplication runs to the end, leaves satisfied
    constraints and the right point, provided the tangent slopes it needs can be
    computed.

    Everything here is closed under the global context (no axioms). *)
From Coq Require Import ZArith NArith Arith Bool Lia List.
From Verif Require Import Util Algebra PField Gate GateProofs GateOps GateExtra Integer Bn254 Bn254Prime
  IntegerHistory IntegerHistorySound IntegerHistoryComplete Curve CurveAssoc Bn254Curve Ecc EccSound EccScalar EccMul EccComplete EccHistory CurveOrder GeneratorOrder
  EccMulComplete EccHonest EccLucky Properties_Ecc.
Import ListNotations.
Local Open Scope Z_scope.
Local Notation fr_n := (eq_refl : pf_n Fr = fr_mod).
Local Notation fq_n := (eq_refl : pf_n Fq = fq_mod).

(** The chip computes the slope [l = 3x²/2y] of the tangent at (x, y) with integers: from
    the divisor [d] (the sum of the ordinate with itself, reduced or not) it gets the [l]
    below the modulus with [l·d = 3x²] and then divides [l·d - 3x²] by the modulus.  That
    works if the difference is not negative and the quotient's lowest limb is at least 2. *)
Definition slope_computable (x y : Fq) : Prop := forall d l : Z,
  (d = 2 * toZ y \/ d = (2 * toZ y) mod fq_mod) -> 0 <= l < fq_mod -> (l * d) mod fq_mod = (3 * toZ (fmul x x)) mod fq_mod ->
  3 * toZ (fmul x x) <= l * d /\ 2 <= ((l * d - 3 * toZ (fmul x x)) / fq_mod) mod 2 ^ 68.
Definition tangent (P : point Fq) : Prop := match P with Inf => True | Aff x y => slope_computable x y end.

Lemma tangent_fine P : on_curve b3 P -> (tangent P <-> fine Fq P).
Proof.
  destruct P as [|x y]; [tauto|]. intro O. cbn [tangent fine].
  assert (Hy : y <> f0) by exact (no_ordinate_0 Fq fq_n x y O).
  assert (Ry : 0 <= toZ y < fq_mod) by exact (toZ_range Fq y).
  assert (Hy0 : toZ y <> 0). { intro E. apply Hy. apply toZ_inj. rewrite E. symmetry. apply (toZ_0 Fq). }
  assert (Hd : forall d, d = 2 * toZ y \/ d = (2 * toZ y) mod fq_mod -> d mod fq_mod <> 0).
  { assert (H2 : (2 * toZ y) mod fq_mod <> 0).
    { intro E. apply Z.mod_divide in E; [|discriminate]. destruct E as [k Ek]. assert (Ho : fq_mod mod 2 = 1) by reflexivity.
      assert (k = 1) by nia. subst k. rewrite Z.mul_1_l in Ek. rewrite <- Ek, Z.mul_comm, Z.mod_mul in Ho; discriminate. }
    intros d [-> | ->]; [assumption|]. now rewrite Z.mod_mod. }
  assert (Q : forall A d, d mod fq_mod <> 0 -> let l := quotient Fq A d in 0 <= l < fq_mod /\ (l * d) mod fq_mod = A mod fq_mod).
  { intros A d H l. split; [exact (toZ_range Fq _)|].
    assert (E : @ofZ Fq (l * d) = ofZ A).
    { rewrite ofZ_mul. unfold l, quotient. rewrite ofZ_toZ.
      assert (Nz : @ofZ Fq d <> f0). { intro E. apply H. apply (f_equal toZ) in E. rewrite toZ_ofZ in E. rewrite (toZ_0 Fq) in E. exact E. }
      destruct (f_th Fq) as [RT _ _ IL]. pose proof (IL _ Nz) as E1.
      transitivity (fmul (fmul (finv (@ofZ Fq d)) (ofZ d)) (@ofZ Fq A)).
      - rewrite <- (Ring_theory.Rmul_assoc RT), (Ring_theory.Rmul_comm RT (ofZ A)), (Ring_theory.Rmul_assoc RT). reflexivity.
      - rewrite E1. apply (Ring_theory.Rmul_1_l RT). }
    apply (f_equal toZ) in E. rewrite !toZ_ofZ in E. exact E. }
  unfold slope_ok, reaches, not_tiny, slope_den. change ((1 =? 0)%nat) with false. change ((0 =? 0)%nat) with true. cbv iota. split.
  - intro H. split; right; (split; [assumption|]).
    + destruct (Q (slope_num Fq x) (2 * toZ y) (Hd _ (or_introl eq_refl))) as [Q1 Q2]. exact (H _ _ (or_introl eq_refl) Q1 Q2).
    + destruct (Q (slope_num Fq x) ((2 * toZ y) mod fq_mod) (Hd _ (or_intror eq_refl))) as [Q1 Q2]. exact (H _ _ (or_intror eq_refl) Q1 Q2).
  - intros [[[_ E]|(_ & H1)] [[_ E']|(_ & H2)]] d l Ed Rl El; try contradiction.
    rewrite <- (quotient_eq Fq fq_n (slope_num Fq x) d l Rl El (Hd d Ed)). destruct Ed as [-> | ->]; assumption.
Qed.

(** The prover's cells of [a] hold [P] ([hp]: limbs and values agree, the coordinates of
    the identity are 0, the coordinates have even overflow counts, a cached slope is the
    slope); an assigned point does. *)
Definition prover_has (c : ctx Fr) (a : apoint Fr) (P : point Fq) : Prop := hp Fr Fq c a P.
Theorem C16_assigned (P : point Fq) (c : ctx Fr) : on_curve b3 P -> good c ->
  exists a c', assign_point P c = Some (a, c') /\ good c' /\ prover_has c' a P.
Proof.
  intros O Gc. destruct (assign_point_hp Fr Fq fr_n fq_n c P O Gc) as (a & c' & E & _ & G' & H). now exists a, c'.
Qed.
Print Assumptions C16_assigned.
Lemma prover_represents c a P : prover_has c a P -> represents (adv c) a P.
Proof. intro H. apply represents_iff. exact (hp_rp Fr Fq c a P H). Qed.

(** The value of a scalar cell. *)
Definition value (s : aval Fr) : N := Z.to_N (toZ (av_val s)).
(** [mul] needs the slopes of 1·P, ..., 15·P and of the running result (the leading hex
    digits of the scalar, times P), doubled up to three times. *)
Definition mul_tangents (k : N) (P : point Fq) : Prop :=
  (forall i, (1 <= i <= 15)%N -> tangent (smul i P)) /\
  (forall m i, (1 <= m)%N -> (i < 4)%N -> tangent (smul (2 ^ i * (k / 16 ^ m)) P)).
Lemma mul_tangents_lucky k P : on_curve b3 P -> (mul_tangents k P <-> lucky Fq k P).
Proof.
  intro O. assert (H : forall i, tangent (smul i P) <-> fine Fq (smul i P)) by (intro i; apply tangent_fine; now apply (son Fq)).
  split; intros [H1 H2]; split; intros; apply H; auto; apply H1; lia.
Qed.

(** Missing to "multiplication never aborts": points with a tangent that cannot be
    computed, see [C16_mul_refuted]. *)
Theorem C16_mul_complete_partial (c : ctx Fr) a s (P : point Fq) :
  good c -> prover_has c a P -> valid c s -> mul_tangents (value s) P ->
  exists r c', ecc_mul Fq a s c = Some (r, c') /\ sat (adv c') c' /\ good c' /\ prover_has c' r (smul (value s) P) /\
    represents (adv c') r (smul (value s) P).
Proof.
  intros Gc Ha Hs HT. apply mul_tangents_lucky in HT; [|exact (hp_on Fr Fq c a P Ha)].
  destruct (ecc_mul_hp Fr Fq fr_n fq_n c a s P Ha Hs HT Gc) as (r & c' & E & L & G' & Hr).
  exists r, c'. split; [exact E|]. split; [exact (good_sat Fr c' G')|]. split; [exact G'|]. split; [exact Hr|exact (prover_represents _ _ _ Hr)].
Qed.
Print Assumptions C16_mul_complete_partial.

(** [shamir] with the scalars' hex digits, most significant first: it adds, for every
    window, the multiples by the digits, and adds the sum to 16 times the running result.
    It needs the slopes of the first fifteen multiples of every point, of every window's
    sum, and of the running result doubled up to three times; and no sum may be the
    identity unless both summands are. *)
Definition leading (j : nat) (k : N) : N := (k / 16 ^ N.of_nat (64 - j))%N.
Definition digit (j : nat) (k : N) : N := (leading (S j) k mod 16)%N.
Definition combination (f : N -> N) (D : list (N * point Fq)) : point Fq := fold_right padd Inf (map (fun kP => smul (f (fst kP)) (snd kP)) D).
Definition no_cancel (P Q : point Fq) : Prop := padd P Q = Inf -> P = Inf /\ Q = Inf.
Fixpoint sums_fine (ts : list (point Fq)) (A : point Fq) {struct ts} : Prop :=
  match ts with [] => True | T :: ts => no_cancel T A /\ sums_fine ts (padd T A) end.
Definition shamir_tangents (D : list (N * point Fq)) : Prop :=
  (forall k P, In (k, P) D -> forall i, (1 <= i <= 15)%N -> tangent (smul i P)) /\
  (forall j, (j < 64)%nat ->
     match map (fun kP => smul (digit j (fst kP)) (snd kP)) D with [] => False | T :: ts => sums_fine ts T end /\
     ((1 <= j)%nat -> tangent (combination (digit j) D) /\ (forall i, (i < 4)%N -> tangent (smul (2 ^ i) (combination (leading j) D))) /\
        no_cancel (combination (digit j) D) (smul 16 (combination (leading j) D)))).
Lemma psum_fold l : psum Fq l = fold_right padd Inf l.
Proof. induction l; [reflexivity|]. cbn [psum fold_right]. now rewrite IHl. Qed.
Lemma shamir_tangents_slucky D : Forall (fun kP => on_curve b3 (snd kP)) D -> shamir_tangents D -> slucky Fq D.
Proof.
  intros O [H1 H2]. assert (E : forall f, wsum Fq f D = combination f D) by (intro f; apply psum_fold).
  assert (OC : forall f, on_curve b3 (combination f D)) by (intro f; rewrite <- E; now apply (wsum_on Fq)). split.
  - intros K P HI i L1 L2. apply tangent_fine; [apply (son Fq); exact (proj1 (Forall_forall _ _) O _ HI)|]. apply (H1 K P HI). now split.
  - intros j Hj. destruct (H2 j Hj) as [H3 H4]. split.
    + unfold terms. change dig with digit. destruct (map _ D) as [|T ts]; [assumption|]. clear - H3. revert T H3.
      induction ts as [|T' ts IH]; intros T H; [exact I|]. destruct H as [H H']. split; [exact H|now apply IH].
    + intro J. destruct (H4 J) as (H5 & H6 & H7). rewrite !E. change dig with digit. change lead with leading.
      split; [now apply tangent_fine|]. split; [|exact H7]. intros i Hi. apply tangent_fine; [now apply (son Fq)|now apply H6].
Qed.

Theorem C16_shamir_complete_partial (c : ctx Fr) points scalars (Ps : list (point Fq)) :
  good c -> Forall2 (prover_has c) points Ps -> Forall (valid c) scalars -> length scalars = length points ->
  shamir_tangents (combine (map value scalars) Ps) ->
  exists r c', shamir Fq points scalars c = Some (r, c') /\ sat (adv c') c' /\ good c' /\
    prover_has c' r (combination (fun k => k) (combine (map value scalars) Ps)) /\
    represents (adv c') r (combination (fun k => k) (combine (map value scalars) Ps)).
Proof.
  intros Gc Hp Hs Hl HT. apply shamir_tangents_slucky in HT.
  2: { clear - Hp. revert scalars. induction Hp as [|a P points Ps H _ IH]; intros [|s scalars]; cbn [map combine]; constructor; [exact (hp_on Fr Fq c a P H)|apply IH]. }
  destruct (shamir_hp Fr Fq fr_n fq_n c points scalars Ps Hp Hs Hl HT Gc) as (r & c' & E & L & G' & Hr). rewrite psum_fold in Hr.
  exists r, c'. split; [exact E|]. split; [exact (good_sat Fr c' G')|]. split; [exact G'|]. split; [exact Hr|exact (prover_represents _ _ _ Hr)].
Qed.
Print Assumptions C16_shamir_complete_partial.

(** Multiplying a constant needs nothing (C16_constant_mul_complete); its result is held
    the same way, so that the operations can follow each other. *)
Theorem C16_constant_mul_value (c : ctx Fr) s (P : point Fq) : good c -> valid c s -> on_curve b3 P ->
  exists r c', constant_mul P s c = Some (r, c') /\ sat (adv c') c' /\ good c' /\ prover_has c' r (smul (value s) P).
Proof.
  intros Gc Hs O. destruct (constant_mul_hp Fr Fq fr_n fq_n c P s O Hs Gc) as (r & c' & E & _ & G' & Hr & _).
  exists r, c'. split; [exact E|]. split; [exact (good_sat Fr c' G')|]. split; [exact G'|exact Hr].
Qed.
Print Assumptions C16_constant_mul_value.

(** Some valid points cannot be multiplied by anything. *)
Theorem C16_mul_refuted : exists (P : point Fq) a c, on_curve b3 P /\ assign_point P (ctx0 Fr) = Some (a, c) /\ sat (adv c) c /\
  forall s c', ctx_le c c' -> good c' -> valid c' s -> ecc_mul Fq a s c' = None.
Proof.
  assert (OP : on_curve b3 (Aff (ofZ bad_x) (ofZ bad_y))) by (cbn [on_curve]; apply toZ_inj; vm_compute; reflexivity).
  destruct (assign_point_cpl Fr Fq fr_n fq_n (ctx0 Fr) _ OP (good_ctx0 Fr)) as (a & c & E & _ & Gc & (Ha & Ec)).
  cbn [px py pz coords fst snd] in Ha.
  assert (Hy : @ofZ Fq bad_y <> f0) by (intro H; apply (f_equal toZ) in H; vm_compute in H; discriminate).
  assert (Hr : ~ reaches Fq (slope_num Fq (ofZ bad_x)) (slope_den Fq (ofZ bad_y) 0)).
  { assert (Eq : quotient Fq (slope_num Fq (ofZ bad_x)) (slope_den Fq (ofZ bad_y) 0) = 1088).
    { apply (quotient_eq Fq fq_n); [split; vm_compute; congruence|vm_compute; reflexivity|vm_compute; discriminate]. }
    unfold reaches. rewrite Eq. intro H. vm_compute in H. now apply H. }
  exists (Aff (ofZ bad_x) (ofZ bad_y)), a, c. split; [exact OP|]. split; [exact E|]. split; [exact (good_sat Fr c Gc)|].
  intros s c' L G' Hs. exact (ecc_mul_aborts Fr Fq fr_n fq_n c' a s _ _ G' (has_pt_le Fr Fq _ _ _ _ _ _ _ _ L Ha) Ec Hs Hy Hr).
Qed.
Print Assumptions C16_mul_refuted.

(** ** Concrete cases: 300·G, and 300·G + 17·(2G) *)
Lemma ex_fine_fq : Forall (fun m => fine Fq (smul m (G Fq))) ex_multiples.
Proof. exact (ex_fine Fq fq_n). Qed.
Lemma OG : on_curve b3 (G Fq).
Proof. exact (proj1 (generator_order Fq fq_n)). Qed.
Example C16_mul_example : exists a s c r c', good c /\ prover_has c a (G Fq) /\ valid c s /\ value s = 300%N /\ mul_tangents (value s) (G Fq) /\
  ecc_mul Fq a s c = Some (r, c') /\ sat (adv c') c' /\ represents (adv c') r (smul 300 (G Fq)).
Proof.
  destruct (assign_cpl Fr (ctx0 Fr) (ofZ 300) (good_ctx0 Fr)) as (s & c0 & _ & _ & G0 & Hs & Vs).
  destruct (assign_point_hp Fr Fq fr_n fq_n c0 (G Fq) OG G0) as (a & c & _ & L & Gc & Ha).
  assert (V : value s = 300%N) by (unfold value; rewrite Vs; vm_compute; reflexivity).
  assert (HT : mul_tangents (value s) (G Fq)).
  { rewrite V. apply mul_tangents_lucky; [exact OG|]. apply (luckyb_ok Fq ex_multiples 300 ex_fine_fq); [reflexivity|vm_compute; reflexivity]. }
  pose proof (valid_le Fr c0 c s L Hs) as Hs'.
  destruct (C16_mul_complete_partial c a s (G Fq) Gc Ha Hs' HT) as (r & c' & E & S' & _ & _ & R).
  exists a, s, c, r, c'. split; [exact Gc|]. split; [exact Ha|]. split; [exact Hs'|]. split; [exact V|]. split; [exact HT|].
  split; [exact E|]. split; [exact S'|]. rewrite V in R. exact R.
Qed.
Lemma slucky_shamir_tangents D : Forall (fun kP => on_curve b3 (snd kP)) D -> slucky Fq D -> shamir_tangents D.
Proof.
  intros O [H1 H2]. assert (E : forall f, wsum Fq f D = combination f D) by (intro f; apply psum_fold).
  assert (OC : forall f, on_curve b3 (combination f D)) by (intro f; rewrite <- E; now apply (wsum_on Fq)). split.
  - intros K P HI i [L1 L2]. apply tangent_fine; [apply (son Fq); exact (proj1 (Forall_forall _ _) O _ HI)|]. exact (H1 K P HI i L1 L2).
  - intros j Hj. destruct (H2 j Hj) as [H3 H4]. split.
    + unfold terms in H3. change dig with digit in H3. destruct (map _ D) as [|T ts]; [assumption|]. clear - H3. revert T H3.
      induction ts as [|T' ts IH]; intros T H; [exact I|]. destruct H as [H H']. split; [exact H|now apply IH].
    + intro J. destruct (H4 J) as (H5 & H6 & H7). rewrite !E in *. change dig with digit in *. change lead with leading in *.
      split; [now apply tangent_fine|]. split; [|exact H7]. intros i Hi. apply tangent_fine; [now apply (son Fq)|]. exact (H6 i Hi).
Qed.
Lemma comb_sum f D : wsum Fq f D = combination f D.
Proof. apply psum_fold. Qed.
Example C16_shamir_example : exists a1 a2 s1 s2 c r c', good c /\ prover_has c a1 (smul 1 (G Fq)) /\ prover_has c a2 (smul 2 (G Fq)) /\
  valid c s1 /\ valid c s2 /\ value s1 = 300%N /\ value s2 = 17%N /\ shamir_tangents [(300%N, smul 1 (G Fq)); (17%N, smul 2 (G Fq))] /\
  shamir Fq [a1; a2] [s1; s2] c = Some (r, c') /\ sat (adv c') c' /\ represents (adv c') r (smul 334 (G Fq)).
Proof.
  destruct (assign_cpl Fr (ctx0 Fr) (ofZ 300) (good_ctx0 Fr)) as (s1 & c0 & _ & _ & G0 & Hs1 & Vs1).
  destruct (assign_cpl Fr c0 (ofZ 17) G0) as (s2 & c1 & _ & L1 & G1 & Hs2 & Vs2).
  destruct (assign_point_hp Fr Fq fr_n fq_n c1 (smul 1 (G Fq)) (son Fq 1 _ OG) G1) as (a1 & c2 & _ & L2 & G2 & Ha1).
  destruct (assign_point_hp Fr Fq fr_n fq_n c2 (smul 2 (G Fq)) (son Fq 2 _ OG) G2) as (a2 & c3 & _ & L3 & G3 & Ha2).
  assert (V1 : value s1 = 300%N) by (unfold value; rewrite Vs1; vm_compute; reflexivity).
  assert (V2 : value s2 = 17%N) by (unfold value; rewrite Vs2; vm_compute; reflexivity).
  set (E := [(300, 1); (17, 2)]%N). assert (HT : shamir_tangents (pts Fq E)).
  { apply slucky_shamir_tangents; [apply pts_on|]. apply (sluckyb_ok Fq fq_n ex_multiples E ex_fine_fq). vm_compute. reflexivity. }
  pose proof (ctx_le_trans Fr _ _ _ L2 L3) as L13. pose proof (ctx_le_trans Fr _ _ _ L1 L13) as L03.
  pose proof (valid_le Fr c0 c3 s1 L03 Hs1) as Hs1'. pose proof (valid_le Fr c1 c3 s2 L13 Hs2) as Hs2'. pose proof (hp_le Fr Fq _ _ _ _ L3 Ha1) as Ha1'.
  assert (ED : combine (map value [s1; s2]) [smul 1 (G Fq); smul 2 (G Fq)] = pts Fq E) by (cbn [map combine]; rewrite V1, V2; reflexivity).
  destruct (C16_shamir_complete_partial c3 [a1; a2] [s1; s2] [smul 1 (G Fq); smul 2 (G Fq)] G3) as (r & c' & Er & S' & _ & _ & R).
  { constructor; [exact Ha1'|]. constructor; [exact Ha2|constructor]. }
  { constructor; [exact Hs1'|]. constructor; [exact Hs2'|constructor]. }
  { reflexivity. }
  { rewrite ED. exact HT. }
  exists a1, a2, s1, s2, c3, r, c'. repeat (split; [assumption|]). rewrite ED, <- comb_sum, (pts_sum Fq fq_n) in R.
  replace (comb (fun k => k) E) with 334%N in R by (vm_compute; reflexivity). exact R.
Qed.
