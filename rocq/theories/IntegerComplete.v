(** Completeness of the integer chip: the honest prover's values are accepted. *)
From Coq Require Import ZArith Arith Lia List Bool Ring Field Znumtheory.
From Verif Require Import Util Algebra PField Gate GateProofs GateOps RangeProofs Integer Bn254 IntegerFacts IntegerSound IntegerOps.
Import ListNotations.
Local Open Scope Z_scope.

(** the integer the prover puts in a cell *)
Definition vz {N : PF} (x : aval N) : Z := toZ (av_val x).
(** limb sizes of the prover's values *)
Definition vbnd {N : PF} (a : aint N) (K : Z) : Prop :=
  vz (l0 a) <= K * (2 ^ 68 - 1) /\ vz (l1 a) <= K * (2 ^ 68 - 1) /\ vz (l2 a) <= K * (2 ^ 68 - 1) /\ vz (l3 a) <= K * (2 ^ 50 - 1).
(** all cells of [a] are assigned, and its native cell (if cached) holds its value *)
Definition ok {N : PF} (c : ctx N) (a : aint N) : Prop :=
  valid c (l0 a) /\ valid c (l1 a) /\ valid c (l2 a) /\ valid c (l3 a) /\
  match native_of a with Some n => valid c n /\ av_val n = ofZ (bn_of a) | None => True end.

Ltac vle := repeat match goal with
  | L : ctx_le ?c ?c', V : valid ?c ?a |- _ =>
      lazymatch goal with
      | _ : valid c' a |- _ => fail
      | _ => pose proof (valid_le _ _ _ _ L V)
      end
  end.

Ltac v4s := repeat (apply Forall_cons; [split; [assumption|split; assumption]|]); apply Forall_nil.

(** ** Integer arithmetic *)
Lemma mul_wit a0 a1 a2 a3 b0 b1 b2 b3 d0 d1 d2 d3 r0 r1 r2 r3 g0 g1 g2 g3 T :
  g0 + g1 * 2 ^ 68 + g2 * 2 ^ 136 + g3 * 2 ^ 204 = 2 ^ 272 - T ->
  (a0 + a1 * 2 ^ 68 + a2 * 2 ^ 136 + a3 * 2 ^ 204) * (b0 + b1 * 2 ^ 68 + b2 * 2 ^ 136 + b3 * 2 ^ 204) =
  (d0 + d1 * 2 ^ 68 + d2 * 2 ^ 136 + d3 * 2 ^ 204) * T + (r0 + r1 * 2 ^ 68 + r2 * 2 ^ 136 + r3 * 2 ^ 204) ->
  let U0 := a0 * b0 + d0 * g0 + 2 ^ 68 * (a0 * b1 + d0 * g1 + (a1 * b0 + d1 * g0)) - r0 - 2 ^ 68 * r1 + 2 ^ 136 in
  let M := a0 * b2 + d0 * g2 + (a1 * b1 + d1 * g1) + (a2 * b0 + d2 * g0) +
    2 ^ 68 * (a0 * b3 + d0 * g3 + (a1 * b2 + d1 * g2) + (a2 * b1 + d2 * g1) + (a3 * b0 + d3 * g0)) - r2 - 2 ^ 68 * r3 in
  exists V0 V1, U0 = V0 * 2 ^ 136 /\ M + V0 - 1 = V1 * 2 ^ 136.
Proof.
  intros HG HE U0 M.
  set (A := a0 + a1 * 2 ^ 68 + a2 * 2 ^ 136 + a3 * 2 ^ 204) in *.
  set (X := d0 + d1 * 2 ^ 68 + d2 * 2 ^ 136 + d3 * 2 ^ 204) in *.
  set (C4 := a1 * b3 + a2 * b2 + a3 * b1 + d1 * g3 + d2 * g2 + d3 * g1).
  set (C5 := a2 * b3 + a3 * b2 + d2 * g3 + d3 * g2). set (C6 := a3 * b3 + d3 * g3).
  assert (Hsum : (U0 - 2 ^ 136) + 2 ^ 136 * M + 2 ^ 272 * (C4 + 2 ^ 68 * C5 + 2 ^ 136 * C6) = 2 ^ 272 * X).
  { assert (H : A * (b0 + b1 * 2 ^ 68 + b2 * 2 ^ 136 + b3 * 2 ^ 204) + X * (g0 + g1 * 2 ^ 68 + g2 * 2 ^ 136 + g3 * 2 ^ 204)
      - (r0 + r1 * 2 ^ 68 + r2 * 2 ^ 136 + r3 * 2 ^ 204) = 2 ^ 272 * X) by (rewrite HE, HG; ring).
    rewrite <- H. unfold U0, M, C4, C5, C6, A, X. ring. }
  set (Y := X - (C4 + 2 ^ 68 * C5 + 2 ^ 136 * C6)) in *.
  exists (2 ^ 136 * Y - M + 1), Y.
  split; [|ring].
  assert (E : U0 = 2 ^ 136 + 2 ^ 272 * Y - 2 ^ 136 * M) by (unfold Y; lia).
  rewrite E. ring.
Qed.

Lemma wit_bounds P0 P1 r0 r1 P2 P3 r2 r3 V0 V1 :
  0 <= P0 <= 2 ^ 152 -> 0 <= P1 <= 2 ^ 152 -> 0 <= P2 <= 2 ^ 153 -> 0 <= P3 <= 2 ^ 153 ->
  0 <= r0 < 2 ^ 68 -> 0 <= r1 < 2 ^ 68 -> 0 <= r2 < 2 ^ 68 -> 0 <= r3 < 2 ^ 68 ->
  P0 + 2 ^ 68 * P1 - r0 - 2 ^ 68 * r1 + 2 ^ 136 = V0 * 2 ^ 136 ->
  P2 + 2 ^ 68 * P3 - r2 - 2 ^ 68 * r3 + V0 - 1 = V1 * 2 ^ 136 ->
  0 <= V0 < 2 ^ 117 /\ 0 <= V1 < 2 ^ 117.
Proof. lia. Qed.

Lemma bsum x y m n : 0 <= x <= m -> 0 <= y <= n -> 0 <= x + y <= m + n.
Proof. lia. Qed.
Lemma wit_bounds_full a0 a1 a2 a3 b0 b1 b2 b3 d0 d1 d2 d3 r0 r1 r2 r3 g0 g1 g2 g3 V0 V1 :
  0 <= a0 <= 2 ^ 75 -> 0 <= a1 <= 2 ^ 75 -> 0 <= a2 <= 2 ^ 75 -> 0 <= a3 <= 2 ^ 75 ->
  0 <= b0 <= 2 ^ 75 -> 0 <= b1 <= 2 ^ 75 -> 0 <= b2 <= 2 ^ 75 -> 0 <= b3 <= 2 ^ 75 ->
  0 <= d0 <= 2 ^ 75 -> 0 <= d1 <= 2 ^ 75 -> 0 <= d2 <= 2 ^ 75 -> 0 <= d3 <= 2 ^ 75 ->
  0 <= r0 < 2 ^ 68 -> 0 <= r1 < 2 ^ 68 -> 0 <= r2 < 2 ^ 68 -> 0 <= r3 < 2 ^ 68 ->
  0 <= g0 <= 2 ^ 75 -> 0 <= g1 <= 2 ^ 75 -> 0 <= g2 <= 2 ^ 75 -> 0 <= g3 <= 2 ^ 75 ->
  a0 * b0 + d0 * g0 + 2 ^ 68 * (a0 * b1 + d0 * g1 + (a1 * b0 + d1 * g0)) - r0 - 2 ^ 68 * r1 + 2 ^ 136 = V0 * 2 ^ 136 ->
  a0 * b2 + d0 * g2 + (a1 * b1 + d1 * g1) + (a2 * b0 + d2 * g0) +
    2 ^ 68 * (a0 * b3 + d0 * g3 + (a1 * b2 + d1 * g2) + (a2 * b1 + d2 * g1) + (a3 * b0 + d3 * g0)) - r2 - 2 ^ 68 * r3 + V0 - 1
    = V1 * 2 ^ 136 ->
  0 <= V0 < 2 ^ 117 /\ 0 <= V1 < 2 ^ 117.
Proof.
  intros.
  assert (Hp : forall x y, 0 <= x <= 2 ^ 75 -> 0 <= y <= 2 ^ 75 -> 0 <= x * y <= 2 ^ 150)
    by (intros x y Hx Hy; change (2 ^ 150) with (2 ^ 75 * 2 ^ 75); now apply prod_bnd).
  assert (Hs : forall x y u v, 0 <= x <= 2 ^ 75 -> 0 <= y <= 2 ^ 75 -> 0 <= u <= 2 ^ 75 -> 0 <= v <= 2 ^ 75 -> 0 <= x * y + u * v <= 2 ^ 151).
  { intros x y u v Hx Hy Hu Hv. change (2 ^ 151) with (2 ^ 150 + 2 ^ 150). apply bsum; now apply Hp. }
  assert (P1 : 0 <= a0 * b1 + d0 * g1 + (a1 * b0 + d1 * g0) <= 2 ^ 152)
    by (change (2 ^ 152) with (2 ^ 151 + 2 ^ 151); apply bsum; now apply Hs).
  assert (P2 : 0 <= a0 * b2 + d0 * g2 + (a1 * b1 + d1 * g1) + (a2 * b0 + d2 * g0) <= 2 ^ 151 + 2 ^ 151 + 2 ^ 151)
    by (apply bsum; [apply bsum|]; now apply Hs).
  assert (P3 : 0 <= a0 * b3 + d0 * g3 + (a1 * b2 + d1 * g2) + (a2 * b1 + d2 * g1) + (a3 * b0 + d3 * g0) <= 2 ^ 151 + 2 ^ 151 + 2 ^ 151 + 2 ^ 151)
    by (apply bsum; [apply bsum; [apply bsum|]|]; now apply Hs).
  assert (P0 : 0 <= a0 * b0 + d0 * g0 <= 2 ^ 151) by now apply Hs.
  clear Hp Hs. refine (wit_bounds _ _ r0 r1 _ _ r2 r3 V0 V1 _ _ _ _ _ _ _ _ H19 H20); try assumption; clear - P0 P2 P3; lia.
Qed.

(** the same for an unreduced remainder, when the quotient is not tiny *)
Lemma wit_bounds3 a0 a1 a2 a3 b0 b1 b2 b3 d0 d1 d2 d3 r0 r1 r2 r3 g0 g1 g2 g3 V0 V1 :
  0 <= a0 <= 2 ^ 75 -> 0 <= a1 <= 2 ^ 75 -> 0 <= a2 <= 2 ^ 75 -> 0 <= a3 <= 2 ^ 75 ->
  0 <= b0 <= 2 ^ 75 -> 0 <= b1 <= 2 ^ 75 -> 0 <= b2 <= 2 ^ 75 -> 0 <= b3 <= 2 ^ 75 ->
  2 <= d0 <= 2 ^ 75 -> 0 <= d1 <= 2 ^ 75 -> 0 <= d2 <= 2 ^ 75 -> 0 <= d3 <= 2 ^ 75 ->
  0 <= r0 <= 3 * (2 ^ 68 - 1) -> 0 <= r1 <= 3 * (2 ^ 68 - 1) -> 0 <= r2 <= 3 * (2 ^ 68 - 1) -> 0 <= r3 <= 3 * (2 ^ 50 - 1) ->
  0 <= g0 <= 2 ^ 75 -> 2 ^ 67 <= g1 <= 2 ^ 75 -> 0 <= g2 <= 2 ^ 75 -> 2 ^ 67 <= g3 <= 2 ^ 75 ->
  a0 * b0 + d0 * g0 + 2 ^ 68 * (a0 * b1 + d0 * g1 + (a1 * b0 + d1 * g0)) - r0 - 2 ^ 68 * r1 + 2 ^ 136 = V0 * 2 ^ 136 ->
  a0 * b2 + d0 * g2 + (a1 * b1 + d1 * g1) + (a2 * b0 + d2 * g0) +
    2 ^ 68 * (a0 * b3 + d0 * g3 + (a1 * b2 + d1 * g2) + (a2 * b1 + d2 * g1) + (a3 * b0 + d3 * g0)) - r2 - 2 ^ 68 * r3 + V0 - 1
    = V1 * 2 ^ 136 ->
  0 <= V0 < 2 ^ 117 /\ 0 <= V1 < 2 ^ 117.
Proof.
  intros.
  assert (Hp : forall x y, 0 <= x <= 2 ^ 75 -> 0 <= y <= 2 ^ 75 -> 0 <= x * y <= 2 ^ 150)
    by (intros x y Hx Hy; change (2 ^ 150) with (2 ^ 75 * 2 ^ 75); now apply prod_bnd).
  assert (Hm : forall x y, 2 <= x <= 2 ^ 75 -> 2 ^ 67 <= y <= 2 ^ 75 -> 2 ^ 68 <= x * y <= 2 ^ 150).
  { intros x y Hx Hy. split; [|apply Hp; lia]. change (2 ^ 68) with (2 * 2 ^ 67). apply Z.mul_le_mono_nonneg; lia. }
  pose proof (Hm d0 g1 ltac:(assumption) ltac:(assumption)). pose proof (Hm d0 g3 ltac:(assumption) ltac:(assumption)).
  pose proof (Hp a0 b0 ltac:(assumption) ltac:(assumption)). pose proof (Hp a0 b1 ltac:(assumption) ltac:(assumption)).
  pose proof (Hp a1 b0 ltac:(assumption) ltac:(assumption)). pose proof (Hp a0 b2 ltac:(assumption) ltac:(assumption)).
  pose proof (Hp a1 b1 ltac:(assumption) ltac:(assumption)). pose proof (Hp a2 b0 ltac:(assumption) ltac:(assumption)).
  pose proof (Hp a0 b3 ltac:(assumption) ltac:(assumption)). pose proof (Hp a1 b2 ltac:(assumption) ltac:(assumption)).
  pose proof (Hp a2 b1 ltac:(assumption) ltac:(assumption)). pose proof (Hp a3 b0 ltac:(assumption) ltac:(assumption)).
  pose proof (Hp d0 g0 ltac:(lia) ltac:(assumption)). pose proof (Hp d1 g0 ltac:(assumption) ltac:(assumption)).
  pose proof (Hp d2 g0 ltac:(assumption) ltac:(assumption)). pose proof (Hp d3 g0 ltac:(assumption) ltac:(assumption)).
  pose proof (Hp d1 g1 ltac:(assumption) ltac:(lia)). pose proof (Hp d2 g1 ltac:(assumption) ltac:(lia)).
  pose proof (Hp d0 g2 ltac:(lia) ltac:(assumption)). pose proof (Hp d1 g2 ltac:(assumption) ltac:(assumption)).
  clear Hp Hm.
  repeat match goal with H : context [?x * ?y] |- _ =>
    match x with a0 => idtac | a1 => idtac | a2 => idtac | a3 => idtac | d0 => idtac | d1 => idtac | d2 => idtac | d3 => idtac end;
    let t := fresh "t" in set (t := x * y) in *; clearbody t end.
  clear a0 a1 a2 a3 b0 b1 b2 b3 d0 d1 d2 d3 g0 g1 g2 g3 H H0 H1 H2 H3 H4 H5 H6 H7 H8 H9 H10 H15 H16 H17 H18.
  assert (0 <= V0 < 2 ^ 117) by lia. split; [assumption|]. lia.
Qed.

Lemma split68 V : 0 <= V < 2 ^ 117 -> 0 <= V / 2 ^ 68 < 2 ^ 49 /\ 0 <= V mod 2 ^ 68 < 2 ^ 68 /\ V = V / 2 ^ 68 * 2 ^ 68 + V mod 2 ^ 68.
Proof.
  intro H. split; [split; [apply Z.div_pos; lia|apply Z.div_lt_upper_bound; lia]|]. split; [apply Z.mod_pos_bound; lia|].
  pose proof (Z.div_mod V (2 ^ 68) ltac:(lia)). lia.
Qed.

Section Complete.
  Variables N W : PF.
  Hypothesis HN : pf_n N = fr_mod.
  Hypothesis HW : pf_n W = fq_mod.
  Add Field NF : (f_th N).
  Add Field WF : (f_th W).
  Implicit Types (c : ctx N) (a b : aint N) (d : alimbs N).

  Lemma vz_rng (x : aval N) : 0 <= vz x < fr_mod.
  Proof. apply (toZ_rng N HN). Qed.
  Lemma vof (x : aval N) : av_val x = ofZ (vz x).
  Proof. symmetry. apply ofZ_toZ. Qed.
  Lemma vz_eq (x : aval N) z : av_val x = ofZ z -> 0 <= z < fr_mod -> vz x = z.
  Proof. intros H Hz. unfold vz. rewrite H. apply toZ_small. now rewrite HN. Qed.
  Lemma ofZ_small z : 0 <= z < fr_mod -> @toZ N (ofZ z) = z.
  Proof. intro Hz. apply toZ_small. now rewrite HN. Qed.
  Lemma bn_of_eq a : bn_of a = vz (l0 a) + vz (l1 a) * 2 ^ 68 + vz (l2 a) * 2 ^ 136 + vz (l3 a) * 2 ^ 204.
  Proof. unfold bn_of, vz, limb_modulus, LIMB_WIDTH. ring. Qed.
  Lemma bn_of_nonneg a : 0 <= bn_of a.
  Proof.
    rewrite bn_of_eq. pose proof (vz_rng (l0 a)). pose proof (vz_rng (l1 a)). pose proof (vz_rng (l2 a)). pose proof (vz_rng (l3 a)). lia.
  Qed.
  Lemma bn_of_bnd a K : vbnd a K -> bn_of a <= K * (2 ^ 254 - 1).
  Proof. rewrite bn_of_eq. unfold vbnd. lia. Qed.
  Lemma vbnd_le a K K' : K <= K' -> vbnd a K -> vbnd a K'.
  Proof. unfold vbnd. lia. Qed.

  Lemma ok_le c c' a : ctx_le c c' -> ok c a -> ok c' a.
  Proof.
    intros L (H0 & H1 & H2 & H3 & H4). unfold ok. repeat (split; [now apply (valid_le _ _ _ _ L)|]).
    destruct (native_of a); [|exact I]. destruct H4. split; [now apply (valid_le _ _ _ _ L)|assumption].
  Qed.
  Lemma same_bn a a' : same a a' -> bn_of a' = bn_of a.
  Proof. intros (H0 & H1 & H2 & H3 & _). unfold bn_of. now rewrite H0, H1, H2, H3. Qed.
  Lemma same_vbnd a a' K : same a a' -> vbnd a K -> vbnd a' K.
  Proof. intros (H0 & H1 & H2 & H3 & _). unfold vbnd. now rewrite H0, H1, H2, H3. Qed.

  (** the honest assignment agrees with the values *)
  Lemma ok_iv c a : ok c a -> iv (adv c) a = bn_of a.
  Proof.
    intros ((_ & H0) & (_ & H1) & (_ & H2) & (_ & H3) & _). rewrite bn_of_eq. unfold iv, lv4, IntegerFacts.zv, vz.
    now rewrite H0, H1, H2, H3.
  Qed.
  Lemma ok_bnd c a K : ok c a -> vbnd a K -> bnd (adv c) a K.
  Proof.
    intros ((_ & H0) & (_ & H1) & (_ & H2) & (_ & H3) & _). unfold bnd, vbnd, IntegerFacts.zv, vz. now rewrite H0, H1, H2, H3.
  Qed.
  Lemma ok_natok c a : ok c a -> natok (adv c) a.
  Proof.
    intro H. pose proof (ok_iv _ _ H) as E. destruct H as (_ & _ & _ & _ & H). unfold natok.
    destruct (native_of a); [|exact I]. destruct H as [[_ Hv] Hn]. now rewrite E, Hv.
  Qed.

  Lemma exps_cpl c x0 x1 x2 x3 : valid c x0 -> valid c x1 -> valid c x2 -> valid c x3 ->
    cpl c (sum_with_constant (with_exps x0 x1 x2 x3) f0) (fun r c' => valid c' r /\
      av_val r = ofZ (vz x0 + vz x1 * 2 ^ 68 + vz x2 * 2 ^ 136 + vz x3 * 2 ^ 204)).
  Proof.
    intros. eapply cpl_conseq; [apply sum_with_constant_cpl|].
    - unfold with_exps. repeat (apply Forall_cons; [assumption|]). apply Forall_nil.
    - intros r c' _ _ _ [V ->]. split; [assumption|]. cbn [vsum with_exps]. rewrite !limb_exp_eq, !vof, !ofZ_add, !ofZ_mul.
      cbn [Z.of_nat Pos.of_succ_nat Pos.succ Z.mul Pos.mul Pos.add]. rewrite ofZ_1. ring.
  Qed.
  Lemma native_cpl c a : ok c a ->
    cpl c (int_native a) (fun r c' => valid c' (fst r) /\ av_val (fst r) = ofZ (bn_of a) /\ ok c' (snd r) /\ same a (snd r)).
  Proof.
    intros H. unfold int_native. pose proof H as (H0 & H1 & H2 & H3 & H4). destruct (native_of a) as [n|] eqn:E.
    - apply cpl_ret. cbn [fst snd]. destruct H4 as [V Ev].
      split; [exact V|]. split; [exact Ev|]. split; [exact H|repeat split].
    - eapply cpl_bind; [now apply exps_cpl|]. intros n c' _ L _ [V Ev]. apply cpl_ret. cbn [fst snd].
      rewrite <- bn_of_eq in Ev. split; [assumption|]. split; [assumption|]. split; [|repeat split].
      unfold ok. cbn [l0 l1 l2 l3 native_of]. repeat (split; [now apply (valid_le _ _ _ _ L)|]). split; assumption.
  Qed.

  Lemma assign_w_cpl c (v : W) :
    cpl c (assign_w v) (fun r c' => ok c' r /\ bn_of r = toZ v /\ vbnd r 1 /\ overflows r = 0%nat /\ native_of r = None).
  Proof.
    pose proof (toZ_range W v) as Hv. rewrite HW in Hv.
    pose proof (bn_limb_lo (toZ v) 0 ltac:(lia)) as B0. pose proof (bn_limb_lo (toZ v) 1 ltac:(lia)) as B1.
    pose proof (bn_limb_lo (toZ v) 2 ltac:(lia)) as B2.
    pose proof (bn_limb_hi (toZ v) 50 ltac:(lia) ltac:(unfold fq_mod in Hv; lia)) as B3.
    unfold assign_w. cbv zeta.
    eapply cpl_bind; [apply (w_leading_cpl N W HN HW); rewrite ofZ_small; unfold fr_mod; lia|]. intros x3 c1 _ L1 _ [V3 E3].
    eapply cpl_bind; [apply (nonleading_cpl N HN); rewrite ofZ_small; unfold fr_mod; lia|]. intros x2 c2 _ L2 _ [V2 E2].
    eapply cpl_bind; [apply (nonleading_cpl N HN); rewrite ofZ_small; unfold fr_mod; lia|]. intros x1 c3 _ L3 _ [V1 E1].
    eapply cpl_bind; [apply (nonleading_cpl N HN); rewrite ofZ_small; unfold fr_mod; lia|]. intros x0 c4 _ L4 _ [V0 E0].
    apply cpl_ret. vle. unfold ok, vbnd. rewrite bn_of_eq. cbn [l0 l1 l2 l3 native_of overflows].
    apply vz_eq in E0; [|unfold fr_mod; lia]. apply vz_eq in E1; [|unfold fr_mod; lia].
    apply vz_eq in E2; [|unfold fr_mod; lia]. apply vz_eq in E3; [|unfold fr_mod; lia].
    rewrite E0, E1, E2, E3. split; [repeat (split; [assumption|]); exact I|]. split; [symmetry; apply bn_limb_sum; lia|].
    split; [lia|]. split; reflexivity.
  Qed.
  Lemma assign_d_cpl c v : 0 <= v < 2 ^ 271 ->
    cpl c (assign_d W v) (fun d c' => (valid c' (d0 d) /\ valid c' (d1 d) /\ valid c' (d2 d) /\ valid c' (d3 d)) /\
      vz (d0 d) + vz (d1 d) * 2 ^ 68 + vz (d2 d) * 2 ^ 136 + vz (d3 d) * 2 ^ 204 = v /\
      vz (d0 d) < 2 ^ 68 /\ vz (d1 d) < 2 ^ 68 /\ vz (d2 d) < 2 ^ 68 /\ vz (d3 d) < 2 ^ 67).
  Proof.
    intro Hv.
    pose proof (bn_limb_lo v 0 ltac:(lia)) as B0. pose proof (bn_limb_lo v 1 ltac:(lia)) as B1.
    pose proof (bn_limb_lo v 2 ltac:(lia)) as B2. pose proof (bn_limb_hi v 67 ltac:(lia) ltac:(lia)) as B3.
    unfold assign_d. cbv zeta.
    eapply cpl_bind; [apply (d_leading_cpl N W HN HW); rewrite ofZ_small; unfold fr_mod; lia|]. intros x3 c1 _ L1 _ [V3 E3].
    eapply cpl_bind; [apply (nonleading_cpl N HN); rewrite ofZ_small; unfold fr_mod; lia|]. intros x2 c2 _ L2 _ [V2 E2].
    eapply cpl_bind; [apply (nonleading_cpl N HN); rewrite ofZ_small; unfold fr_mod; lia|]. intros x1 c3 _ L3 _ [V1 E1].
    eapply cpl_bind; [apply (nonleading_cpl N HN); rewrite ofZ_small; unfold fr_mod; lia|]. intros x0 c4 _ L4 _ [V0 E0].
    apply cpl_ret. vle. cbn [d0 d1 d2 d3].
    apply vz_eq in E0; [|unfold fr_mod; lia]. apply vz_eq in E1; [|unfold fr_mod; lia].
    apply vz_eq in E2; [|unfold fr_mod; lia]. apply vz_eq in E3; [|unfold fr_mod; lia].
    rewrite E0, E1, E2, E3. split; [auto|]. split; [symmetry; apply bn_limb_sum; lia|]. lia.
  Qed.

  (** *** the limb equations of a product *)
  Lemma pow136_nz : @ofZ N (2 ^ 136) <> f0.
  Proof. intro H. apply (lift_small N HN) in H; [discriminate|]. unfold fr_mod. lia. Qed.
  Lemma quot136 V : fmul (@ofZ N (V * 2 ^ 136)) (finv (ofZ (2 ^ 136))) = ofZ V.
  Proof. rewrite ofZ_mul. field. apply pow136_nz. Qed.

  Lemma mul_limbs_cpl_gen c a b d rem Ka Kb :
    ok c a -> ok c b -> ok c rem -> valid c (d0 d) /\ valid c (d1 d) /\ valid c (d2 d) /\ valid c (d3 d) ->
    (overflows a < 64)%nat -> (overflows b < 64)%nat -> (overflows rem < 64)%nat ->
    0 <= Ka <= 128 -> 0 <= Kb <= 128 -> vbnd a Ka -> vbnd b Kb -> vbnd rem 1 \/ vbnd rem 3 /\ 2 <= vz (d0 d) ->
    vz (d0 d) < 2 ^ 68 /\ vz (d1 d) < 2 ^ 68 /\ vz (d2 d) < 2 ^ 68 /\ vz (d3 d) < 2 ^ 67 ->
    bn_of a * bn_of b = (vz (d0 d) + vz (d1 d) * 2 ^ 68 + vz (d2 d) * 2 ^ 136 + vz (d3 d) * 2 ^ 204) * fq_mod + bn_of rem ->
    cpl c (mul_limbs W a b d rem) (fun _ _ => True).
  Proof.
    intros (Va0 & Va1 & Va2 & Va3 & _) (Vb0 & Vb1 & Vb2 & Vb3 & _) (Vr0 & Vr1 & Vr2 & Vr3 & _) (Vd0 & Vd1 & Vd2 & Vd3)
      Oa Ob Or HKa HKb (Ba0 & Ba1 & Ba2 & Ba3) (Bb0 & Bb1 & Bb2 & Bb3) Brem (Bd0 & Bd1 & Bd2 & Bd3) HE.
    rewrite !bn_of_eq in HE.
    destruct (mul_wit _ _ _ _ _ _ _ _ _ _ _ _ _ _ _ _ _ _ _ _ _ G_sum HE) as (V0 & V1 & HV0 & HV1).
    pose proof (vz_rng (l0 a)). pose proof (vz_rng (l1 a)). pose proof (vz_rng (l2 a)). pose proof (vz_rng (l3 a)).
    pose proof (vz_rng (l0 b)). pose proof (vz_rng (l1 b)). pose proof (vz_rng (l2 b)). pose proof (vz_rng (l3 b)).
    pose proof (vz_rng (l0 rem)). pose proof (vz_rng (l1 rem)). pose proof (vz_rng (l2 rem)). pose proof (vz_rng (l3 rem)).
    pose proof (vz_rng (d0 d)). pose proof (vz_rng (d1 d)). pose proof (vz_rng (d2 d)). pose proof (vz_rng (d3 d)).
    pose proof G_bnd as (BG0 & BG1 & BG2 & BG3).
    assert (HV : 0 <= V0 < 2 ^ 117 /\ 0 <= V1 < 2 ^ 117).
    { destruct Brem as [(Br0 & Br1 & Br2 & Br3)|((Br0 & Br1 & Br2 & Br3) & Hd2)].
      - refine (wit_bounds_full _ _ _ _ _ _ _ _ _ _ _ _ _ _ _ _ _ _ _ _ V0 V1 _ _ _ _ _ _ _ _ _ _ _ _ _ _ _ _ _ _ _ _ HV0 HV1);
          clear HV0 HV1 HE; lia.
      - assert (G1 : 2 ^ 67 <= G 1) by (vm_compute; discriminate). assert (G3 : 2 ^ 67 <= G 3) by (vm_compute; discriminate).
        refine (wit_bounds3 _ _ _ _ _ _ _ _ _ _ _ _ _ _ _ _ _ _ _ _ V0 V1 _ _ _ _ _ _ _ _ _ _ _ _ _ _ _ _ _ _ _ _ HV0 HV1);
          clear HV0 HV1 HE; lia. }
    destruct HV as [RV0 RV1]. destruct (split68 V0 RV0) as (R0h & R0l & S0). destruct (split68 V1 RV1) as (R1h & R1l & S1).
    unfold mul_limbs.
    do 3 (eapply cpl_bind; [apply cpl_guard with (P := fun _ c' => c' = c); [now apply Nat.ltb_lt|reflexivity]|];
          intros [] ? _ _ _ ->).
    eapply cpl_bind; [apply mul_add_with_next_line_cpl; [discriminate|v4s]|]. intros m0 c1 _ L1 _ [W0 E0]. vle.
    eapply cpl_bind; [apply mul_add_with_next_line_cpl; [discriminate|v4s]|]. intros m1 c2 _ L2 _ [W1 E1]. vle.
    eapply cpl_bind; [apply mul_add_with_next_line_cpl; [discriminate|v4s]|]. intros m2 c3 _ L3 _ [W2 E2]. vle.
    eapply cpl_bind; [apply mul_add_with_next_line_cpl; [discriminate|v4s]|]. intros m3 c4 _ L4 _ [W3 E3]. vle.
    cbn [vmsum] in E0, E1, E2, E3.
    assert (F0 : av_val m0 = ofZ (vz (l0 a) * vz (l0 b) + vz (d0 d) * G 0)).
    { rewrite E0, !(neg_w_eq N W HW), !vof. pushz. ring. }
    assert (F1 : av_val m1 = ofZ (vz (l0 a) * vz (l1 b) + vz (d0 d) * G 1 + (vz (l1 a) * vz (l0 b) + vz (d1 d) * G 0))).
    { rewrite E1, !(neg_w_eq N W HW), !vof. pushz. ring. }
    assert (F2 : av_val m2 = ofZ (vz (l0 a) * vz (l2 b) + vz (d0 d) * G 2 + (vz (l1 a) * vz (l1 b) + vz (d1 d) * G 1) +
                                  (vz (l2 a) * vz (l0 b) + vz (d2 d) * G 0))).
    { rewrite E2, !(neg_w_eq N W HW), !vof. pushz. ring. }
    assert (F3 : av_val m3 = ofZ (vz (l0 a) * vz (l3 b) + vz (d0 d) * G 3 + (vz (l1 a) * vz (l2 b) + vz (d1 d) * G 2) +
                                  (vz (l2 a) * vz (l1 b) + vz (d2 d) * G 1) + (vz (l3 a) * vz (l0 b) + vz (d3 d) * G 0))).
    { rewrite E3, !(neg_w_eq N W HW), !vof. pushz. ring. }
    clear E0 E1 E2 E3.
    assert (X0 : fadd (fsub (fadd (fmul (fsub (av_val m1) (av_val (l1 rem))) (limb_modulus_on_n N)) (av_val m0)) (av_val (l0 rem))) (limb_exp N 2)
                 = ofZ (V0 * 2 ^ 136)).
    { rewrite <- HV0, F0, F1, (vof (l0 rem)), (vof (l1 rem)), limb_exp_eq. unfold limb_modulus_on_n, limb_modulus, LIMB_WIDTH.
      change (68 * Z.of_nat 2) with 136. pushz. ring. }
    assert (X1 : fadd (fsub (fadd (fsub (ofZ V0) f1) (av_val m2)) (av_val (l2 rem)))
                  (fmul (fsub (av_val m3) (av_val (l3 rem))) (limb_modulus_on_n N)) = ofZ (V1 * 2 ^ 136)).
    { rewrite <- HV1, F2, F3, (vof (l2 rem)), (vof (l3 rem)). unfold limb_modulus_on_n, limb_modulus, LIMB_WIDTH. pushz. rewrite ofZ_1. ring. }
    cbv zeta. rewrite X0. replace (limb_exp N 2) with (@ofZ N (2 ^ 136)) by (symmetry; apply limb_exp_eq). rewrite quot136, X1, quot136.
    rewrite !ofZ_small by (unfold fr_mod; lia). unfold limb_modulus, LIMB_WIDTH.
    set (h0 := V0 / 2 ^ 68) in *. set (k0 := V0 mod 2 ^ 68) in *. set (h1 := V1 / 2 ^ 68) in *. set (k1 := V1 mod 2 ^ 68) in *.
    clearbody h0 k0 h1 k1.
    eapply cpl_bind; [apply (n_leading_cpl N HN); rewrite ofZ_small; unfold fr_mod; lia|]. intros v0h c5 _ L5 _ [Y0 Z0]. vle.
    eapply cpl_bind; [apply (nonleading_cpl N HN); rewrite ofZ_small; unfold fr_mod; lia|]. intros v0l c6 _ L6 _ [Y1 Z1]. vle.
    eapply cpl_bind; [apply (n_leading_cpl N HN); rewrite ofZ_small; unfold fr_mod; lia|]. intros v1h c7 _ L7 _ [Y2 Z2]. vle.
    eapply cpl_bind; [apply (nonleading_cpl N HN); rewrite ofZ_small; unfold fr_mod; lia|]. intros v1l c8 _ L8 _ [Y3 Z3]. vle.
    eapply cpl_bind; [apply sum_with_constant_cpl; repeat (apply Forall_cons; [assumption|]); apply Forall_nil|].
    intros u0 c9 _ L9 _ [Y4 Z4]. vle.
    assert (U0 : av_val u0 = ofZ (V0 * 2 ^ 136)).
    { rewrite Z4, <- X0, limb_exp_eq. change (68 * Z.of_nat 2) with 136. cbn [vsum]. ring. }
    eapply cpl_bind; [apply row_cpl; [cbn; unfold VAR_COLUMNS; lia|cbn; unfold MUL_COLUMNS; lia|valids|]|].
    { unfold row_ok. rewrite limb_exp_eq. cbn -[pf fadd fmul fopp f0 f1 fsub ofZ Z.pow]. rewrite U0, Z0, Z1, S0.
      change (2 ^ 204) with (2 ^ 68 * 2 ^ 136). pushz. ring. }
    intros ? c10 _ L10 _ _. vle.
    eapply cpl_bind; [apply sum_with_constant_cpl; repeat (apply Forall_cons; [assumption|]); apply Forall_nil|].
    intros u1 c11 _ L11 _ [Y5 Z5]. vle.
    eapply cpl_bind; [apply row_cpl; [cbn; unfold VAR_COLUMNS; lia|cbn; unfold MUL_COLUMNS; lia|valids|]|].
    { unfold row_ok. rewrite !limb_exp_eq. cbn -[pf fadd fmul fopp f0 f1 fsub ofZ Z.pow]. 
      assert (U1 : fadd (av_val u1) (fsub (ofZ V0) f1) = ofZ (V1 * 2 ^ 136)).
      { rewrite <- X1, Z5. cbn [vsum]. ring. }
      rewrite Z0, Z1, Z2, Z3. refine (eq_trans _ (proj2 (fsub_eq0 _ _ _) U1)). rewrite S1, S0.
      change (2 ^ 204) with (2 ^ 68 * 2 ^ 136). change (2 ^ 0) with 1.
      pushz. rewrite ofZ_1. ring. }
    intros ? c12 _ _ _ _. now apply cpl_ret.
  Qed.
  Lemma mul_limbs_cpl c a b d rem Ka Kb :
    ok c a -> ok c b -> ok c rem -> valid c (d0 d) /\ valid c (d1 d) /\ valid c (d2 d) /\ valid c (d3 d) ->
    (overflows a < 64)%nat -> (overflows b < 64)%nat -> (overflows rem < 64)%nat ->
    0 <= Ka <= 128 -> 0 <= Kb <= 128 -> vbnd a Ka -> vbnd b Kb -> vbnd rem 1 ->
    vz (d0 d) < 2 ^ 68 /\ vz (d1 d) < 2 ^ 68 /\ vz (d2 d) < 2 ^ 68 /\ vz (d3 d) < 2 ^ 67 ->
    bn_of a * bn_of b = (vz (d0 d) + vz (d1 d) * 2 ^ 68 + vz (d2 d) * 2 ^ 136 + vz (d3 d) * 2 ^ 204) * fq_mod + bn_of rem ->
    cpl c (mul_limbs W a b d rem) (fun _ _ => True).
  Proof. intros. apply (mul_limbs_cpl_gen c a b d rem Ka Kb); auto. Qed.

  (** *** the native equation *)
  Lemma mul_native_cpl c a b d rem :
    ok c a -> ok c b -> ok c rem -> valid c (d0 d) /\ valid c (d1 d) /\ valid c (d2 d) /\ valid c (d3 d) ->
    bn_of a * bn_of b = (vz (d0 d) + vz (d1 d) * 2 ^ 68 + vz (d2 d) * 2 ^ 136 + vz (d3 d) * 2 ^ 204) * fq_mod + bn_of rem ->
    cpl c (mul_native W a b d rem) (fun r c' => let '(a', b', rem') := r in
      (ok c' a' /\ same a a') /\ (ok c' b' /\ same b b') /\ ok c' rem' /\ same rem rem').
  Proof.
    intros Oa Ob Or (V0 & V1 & V2 & V3) HE. unfold mul_native.
    eapply cpl_bind; [now apply native_cpl|]. intros an c1 _ L1 _ (Va & Ea & Oa' & Sa). vle.
    eapply cpl_bind; [apply native_cpl; now apply (ok_le c)|]. intros bn c2 _ L2 _ (Vb & Eb & Ob' & Sb). vle.
    eapply cpl_bind; [now apply exps_cpl|]. intros dn c3 _ L3 _ (Vd & Ed). vle.
    eapply cpl_bind; [apply native_cpl; now apply (ok_le c2 c3), (ok_le c1 c2), (ok_le c c1)|]. intros rn c4 _ L4 _ (Vr & Er & Or' & Sr). vle.
    eapply cpl_bind; [apply row_cpl; [cbn; unfold VAR_COLUMNS; lia|cbn; unfold MUL_COLUMNS; lia|valids|]|].
    { unfold row_ok. rewrite (w_native_eq N W HN HW). cbn -[pf fadd fmul fopp f0 f1 fsub ofZ Z.pow fq_mod].
      rewrite Ea, Eb, Ed, Er. apply (f_equal (@ofZ N)) in HE. rewrite ofZ_mul, ofZ_add, ofZ_mul in HE.
      refine (eq_trans _ (proj2 (fsub_eq0 _ _ _) HE)). ring. }
    intros ? c5 _ L5 _ _. apply cpl_ret. cbn [fst snd].
    split; [split; [|exact Sa]|split; [split; [|exact Sb]|split; [|exact Sr]]].
    - now apply (ok_le c4 c5), (ok_le c3 c4), (ok_le c2 c3), (ok_le c1 c2).
    - now apply (ok_le c4 c5), (ok_le c3 c4), (ok_le c2 c3).
    - now apply (ok_le c4 c5).
  Qed.
  Lemma square_native_cpl c a d rem :
    ok c a -> ok c rem -> valid c (d0 d) /\ valid c (d1 d) /\ valid c (d2 d) /\ valid c (d3 d) ->
    bn_of a * bn_of a = (vz (d0 d) + vz (d1 d) * 2 ^ 68 + vz (d2 d) * 2 ^ 136 + vz (d3 d) * 2 ^ 204) * fq_mod + bn_of rem ->
    cpl c (square_native W a d rem) (fun r c' => (ok c' (fst r) /\ same a (fst r)) /\ ok c' (snd r) /\ same rem (snd r)).
  Proof.
    intros Oa Or (V0 & V1 & V2 & V3) HE. unfold square_native.
    eapply cpl_bind; [now apply native_cpl|]. intros an c1 _ L1 _ (Va & Ea & Oa' & Sa). vle.
    eapply cpl_bind; [now apply exps_cpl|]. intros dn c3 _ L3 _ (Vd & Ed). vle.
    eapply cpl_bind; [apply native_cpl; now apply (ok_le c1 c3), (ok_le c c1)|]. intros rn c4 _ L4 _ (Vr & Er & Or' & Sr). vle.
    eapply cpl_bind; [apply row_cpl; [cbn; unfold VAR_COLUMNS; lia|cbn; unfold MUL_COLUMNS; lia|valids|]|].
    { unfold row_ok. rewrite (w_native_eq N W HN HW). cbn -[pf fadd fmul fopp f0 f1 fsub ofZ Z.pow fq_mod].
      rewrite Ea, Ed, Er. apply (f_equal (@ofZ N)) in HE. rewrite ofZ_mul, ofZ_add, ofZ_mul in HE.
      refine (eq_trans _ (proj2 (fsub_eq0 _ _ _) HE)). ring. }
    intros ? c5 _ L5 _ _. apply cpl_ret. cbn [fst snd].
    split; [split; [|exact Sa]|split; [|exact Sr]].
    - now apply (ok_le c4 c5), (ok_le c3 c4), (ok_le c1 c3).
    - now apply (ok_le c4 c5).
  Qed.

  (** *** mul, square *)
  Lemma quot_bnd x y Ka Kb : 0 <= Ka -> 0 <= Kb -> Ka * Kb <= 2 ^ 16 -> 0 <= x <= Ka * (2 ^ 254 - 1) -> 0 <= y <= Kb * (2 ^ 254 - 1) ->
    0 <= x * y / fq_mod < 2 ^ 271.
  Proof.
    intros HKa HKb HK Hx Hy. pose proof (prod_bnd _ _ _ _ Hx Hy) as HP. split; [apply Z.div_pos; [lia|reflexivity]|].
    apply Z.div_lt_upper_bound; [reflexivity|].
    replace (Ka * (2 ^ 254 - 1) * (Kb * (2 ^ 254 - 1))) with ((Ka * Kb) * ((2 ^ 254 - 1) * (2 ^ 254 - 1))) in HP by ring.
    revert HP HK. generalize (x * y) (Ka * Kb). unfold fq_mod. intros. lia.
  Qed.
  Lemma w_of_mod z : @toZ W (ofZ (z mod fq_mod)) = z mod fq_mod.
  Proof. rewrite toZ_ofZ, HW. apply Zmod_mod. Qed.

  (** what a product looks like *)
  Definition canon c (r : aint N) (v : Z) : Prop :=
    ok c r /\ bn_of r = v mod fq_mod /\ vbnd r 1 /\ overflows r = 0%nat.

  Lemma int_mul_cpl c a b Ka Kb :
    ok c a -> ok c b -> (overflows a < 64)%nat -> (overflows b < 64)%nat -> 0 <= Ka <= 128 -> 0 <= Kb <= 128 -> vbnd a Ka -> vbnd b Kb ->
    cpl c (int_mul W a b) (fun r c' => let '(p, a', b') := r in
      canon c' p (bn_of a * bn_of b) /\ (ok c' a' /\ same a a') /\ (ok c' b' /\ same b b')).
  Proof.
    intros Oa Ob Ova Ovb HKa HKb Ba Bb. unfold int_mul, w_modulus. rewrite HW. cbv zeta.
    assert (HD : 0 <= bn_of a * bn_of b / fq_mod < 2 ^ 271).
    { apply (quot_bnd _ _ Ka Kb); try lia.
      - pose proof (prod_bnd Ka Kb 128 128 HKa HKb). lia.
      - split; [apply bn_of_nonneg|now apply bn_of_bnd].
      - split; [apply bn_of_nonneg|now apply bn_of_bnd]. }
    eapply cpl_bind; [apply assign_w_cpl|]. intros rem c1 _ L1 _ (Or & Er & Br & Ovr & Nr). rewrite w_of_mod in Er.
    eapply cpl_bind; [now apply assign_d_cpl|]. intros d c2 _ L2 _ (Vd & Ed & Bd).
    assert (HE : bn_of a * bn_of b = (vz (d0 d) + vz (d1 d) * 2 ^ 68 + vz (d2 d) * 2 ^ 136 + vz (d3 d) * 2 ^ 204) * fq_mod + bn_of rem).
    { rewrite Ed, Er. rewrite (Z.mul_comm (_ / _)). apply Z.div_mod. discriminate. }
    assert (Oa2 : ok c2 a) by now apply (ok_le c1 c2), (ok_le c c1).
    assert (Ob2 : ok c2 b) by now apply (ok_le c1 c2), (ok_le c c1).
    assert (Or2 : ok c2 rem) by now apply (ok_le c1 c2).
    eapply cpl_bind; [apply (mul_limbs_cpl c2 a b d rem Ka Kb); auto; lia|]. intros u c3 _ L3 _ _.
    eapply cpl_bind; [apply mul_native_cpl; try (now apply (ok_le c2 c3)); [|exact HE]|].
    { destruct Vd as (X0 & X1 & X2 & X3). vle. auto. }
    intros [[a' b'] rem'] c4 _ L4 _ (Ha & Hb & Or' & Sr). apply cpl_ret. split; [|split; assumption].
    split; [exact Or'|]. split; [now rewrite (same_bn _ _ Sr)|]. split; [now apply (same_vbnd rem)|].
    transitivity (overflows rem); [apply Sr|assumption].
  Qed.
  Lemma int_square_cpl c a Ka :
    ok c a -> (overflows a < 64)%nat -> 0 <= Ka <= 128 -> vbnd a Ka ->
    cpl c (int_square W a) (fun r c' => canon c' (fst r) (bn_of a * bn_of a) /\ (ok c' (snd r) /\ same a (snd r))).
  Proof.
    intros Oa Ova HKa Ba. unfold int_square, w_modulus. rewrite HW. cbv zeta.
    assert (HD : 0 <= bn_of a * bn_of a / fq_mod < 2 ^ 271).
    { apply (quot_bnd _ _ Ka Ka); try lia.
      - pose proof (prod_bnd Ka Ka 128 128 HKa HKa). lia.
      - split; [apply bn_of_nonneg|now apply bn_of_bnd].
      - split; [apply bn_of_nonneg|now apply bn_of_bnd]. }
    eapply cpl_bind; [apply assign_w_cpl|]. intros rem c1 _ L1 _ (Or & Er & Br & Ovr & Nr). rewrite w_of_mod in Er.
    eapply cpl_bind; [now apply assign_d_cpl|]. intros d c2 _ L2 _ (Vd & Ed & Bd).
    assert (HE : bn_of a * bn_of a = (vz (d0 d) + vz (d1 d) * 2 ^ 68 + vz (d2 d) * 2 ^ 136 + vz (d3 d) * 2 ^ 204) * fq_mod + bn_of rem).
    { rewrite Ed, Er. rewrite (Z.mul_comm (_ / _)). apply Z.div_mod. discriminate. }
    assert (Oa2 : ok c2 a) by now apply (ok_le c1 c2), (ok_le c c1).
    assert (Or2 : ok c2 rem) by now apply (ok_le c1 c2).
    eapply cpl_bind; [apply (mul_limbs_cpl c2 a a d rem Ka Ka); auto; lia|]. intros u c3 _ L3 _ _.
    eapply cpl_bind; [apply square_native_cpl; try (now apply (ok_le c2 c3)); [|exact HE]|].
    { destruct Vd as (X0 & X1 & X2 & X3). vle. auto. }
    intros ar c4 _ L4 _ (Ha & Or' & Sr). apply cpl_ret. cbn [fst snd]. split; [|assumption].
    split; [exact Or'|]. split; [now rewrite (same_bn _ _ Sr)|]. split; [now apply (same_vbnd rem)|].
    transitivity (overflows rem); [apply Sr|assumption].
  Qed.

  (** *** reduce *)
  Lemma reduce_wit A A0 R R0 q x y T0 :
    0 <= A <= 64 * (2 ^ 254 - 1) -> A = A0 + x * 2 ^ 68 -> 0 <= A0 <= 64 * (2 ^ 68 - 1) -> R = A mod fq_mod -> R = R0 + y * 2 ^ 68 ->
    0 <= R0 < 2 ^ 68 -> fq_mod = q * 2 ^ 68 + T0 -> 0 <= T0 < 2 ^ 68 ->
    let D := A / fq_mod in let P := D * T0 + R0 + 2 ^ 74 in
    0 <= D < 2 ^ 17 /\ A0 <= P /\ P - A0 = (P - A0) / 2 ^ 68 * 2 ^ 68 /\ 0 <= (P - A0) / 2 ^ 68 < 2 ^ 17.
  Proof.
    intros HA HA0 BA0 HR HR0 BR0 Hq HT D P.
    assert (HD : 0 <= D < 2 ^ 9).
    { unfold D. split; [apply Z.div_pos; [lia|reflexivity]|]. apply Z.div_lt_upper_bound; [reflexivity|]. unfold fq_mod. lia. }
    assert (HDT : 0 <= D * T0 <= 2 ^ 9 * 2 ^ 68) by (apply prod_bnd; lia).
    assert (HE : A = fq_mod * D + R) by (unfold D; rewrite HR; apply Z.div_mod; discriminate).
    assert (Hdiv : P - A0 = (x + 64 - D * q - y) * 2 ^ 68) by (unfold P; rewrite Hq in HE; lia).
    split; [lia|]. split; [unfold P; lia|]. rewrite Hdiv, Z.div_mul by lia. split; [reflexivity|].
    unfold P in Hdiv. lia.
  Qed.

  Lemma reduce_cpl c a K :
    ok c a -> (overflows a < 64)%nat -> 0 <= K <= 64 -> vbnd a K ->
    cpl c (int_reduce W a) (fun r c' => if (overflows a =? 0)%nat then r = a else canon c' r (bn_of a)).
  Proof.
    intros Oa Ova HK Ba. unfold int_reduce. destruct (Nat.eqb_spec (overflows a) 0) as [E0|E0]; [now apply cpl_ret|].
    eapply cpl_bind; [apply cpl_guard with (P := fun _ c' => c' = c); [now apply Nat.ltb_lt|reflexivity]|]. intros [] ? _ _ _ ->.
    cbv zeta. unfold w_modulus, limb_modulus, LIMB_WIDTH. rewrite HW. change (2 ^ 68 * Z.of_nat OVERFLOW_LIMIT) with (2 ^ 74).
    set (R := bn_of a mod fq_mod). fold (vz (l0 a)).
    assert (HR : 0 <= R < fq_mod) by (apply Z.mod_pos_bound; reflexivity).
    pose proof (bn_of_nonneg a) as Hp. pose proof (bn_of_bnd a K Ba) as Hb.
    pose proof (vz_rng (l0 a)) as R0. pose proof Ba as (B0 & _).
    pose proof (bn_limb_lo R 0 ltac:(lia)) as BR0. pose proof (bn_limb_lo fq_mod 0 ltac:(lia)) as BT0.
    destruct (reduce_wit (bn_of a) (vz (l0 a)) R (bn_limb 0 R) (fq_mod / 2 ^ 68) (vz (l1 a) + vz (l2 a) * 2 ^ 68 + vz (l3 a) * 2 ^ 136)
      (R / 2 ^ 68) (bn_limb 0 fq_mod)) as (RD & RP & DV & RV); try assumption; try reflexivity; try lia.
    { rewrite bn_of_eq. ring. }
    { pose proof (Z.div_mod R (2 ^ 68) ltac:(lia)) as H. change (bn_limb 0 R) with (R mod 2 ^ 68). lia. }
    set (D := bn_of a / fq_mod) in *. set (P := D * bn_limb 0 fq_mod + bn_limb 0 R + 2 ^ 74) in *.
    set (V := (P - vz (l0 a)) / 2 ^ 68) in *.
    eapply cpl_bind; [apply cpl_guard with (P := fun _ c' => c' = c); [now apply Z.leb_le|reflexivity]|]. intros [] ? _ _ _ ->.
    eapply cpl_bind; [apply assign_w_cpl|]. intros rem c1 _ L1 _ (Or & Er & Br & Ovr & Nr). unfold R in Er. rewrite w_of_mod in Er. fold R in Er.
    eapply cpl_bind.
    { apply (range_cpl N) with (lead := None); [cbn; unfold VAR_COLUMNS; lia|cbn; unfold MUL_COLUMNS; lia|valids| | |discriminate].
      - unfold row_ok. cbn -[pf fadd fmul fopp f0 f1 fsub ofZ Z.pow]. ring.
      - intros i Hi. cbn -[ofZ pf f0 f1 Z.pow]. change (2 ^ Z.of_nat COMMON_RANGE_BITS) with (2 ^ 17).
        destruct i as [|[|[|[|i]]]]; try lia.
        + rewrite ofZ_small; unfold fr_mod; lia.
        + rewrite ofZ_small; unfold fr_mod; lia.
        + rewrite toZ_0. lia.
        + rewrite toZ_0. lia. }
    intros cells c2 _ L2 _ [-> Hv].
    eapply cpl_bind; [eapply cpl_at with (P := fun x c' => c' = c2 /\ valid c2 x /\ av_val x = ofZ D); [reflexivity|]|].
    { split; [reflexivity|]. split; [|reflexivity]. apply (proj1 (Forall_forall _ _) Hv). cbn. auto. }
    intros d ? _ _ _ (-> & Vd & Ed).
    eapply cpl_bind; [eapply cpl_at with (P := fun x c' => c' = c2 /\ valid c2 x /\ av_val x = ofZ V); [reflexivity|]|].
    { split; [reflexivity|]. split; [|reflexivity]. apply (proj1 (Forall_forall _ _) Hv). cbn. auto. }
    intros v ? _ _ _ (-> & Vv & Ev). clear Hv.
    eapply cpl_bind; [apply native_cpl; now apply (ok_le c1 c2)|]. intros rn c3 _ L3 _ (Vrn & Ern & Orn & Srn). vle.
    eapply cpl_bind; [apply native_cpl; now apply (ok_le c2 c3), (ok_le c1 c2), (ok_le c c1)|].
    intros an c4 _ L4 _ (Van & Ean & Oan & San). vle.
    eapply cpl_bind; [apply row_cpl; [cbn; unfold VAR_COLUMNS; lia|cbn; unfold MUL_COLUMNS; lia|valids|]|].
    { unfold row_ok. rewrite (w_native_eq N W HN HW). cbn -[pf fadd fmul fopp f0 f1 fsub ofZ Z.pow fq_mod].
      rewrite Ean, Ern, Ed, Er. assert (HE : bn_of a = D * fq_mod + R) by (unfold D; rewrite (Z.mul_comm (_ / _)); apply Z.div_mod; discriminate).
      rewrite HE, ofZ_add, ofZ_mul. ring. }
    intros ? c5 _ L5 _ _. vle.
    assert (Orn5 : ok c5 (snd rn)) by now apply (ok_le c4 c5), (ok_le c3 c4).
    assert (Oan5 : ok c5 (snd an)) by now apply (ok_le c4 c5).
    pose proof Orn5 as (Vr0 & _). pose proof Oan5 as (Va0 & _).
    eapply cpl_bind; [apply row_cpl; [cbn; unfold VAR_COLUMNS; lia|cbn; unfold MUL_COLUMNS; lia|valids|]|].
    { unfold row_ok. cbn -[pf fadd fmul fopp f0 f1 fsub ofZ Z.pow fq_mod bn_limb].
      rewrite Ed, Ev. destruct Srn as (-> & _). destruct San as (-> & _). rewrite (vof (l0 a)), (vof (l0 rem)).
      assert (E0r : vz (l0 rem) = bn_limb 0 R).
      { rewrite <- Er. change (bn_limb 0 (bn_of rem)) with (bn_of rem mod 2 ^ 68). rewrite bn_of_eq.
        replace (vz (l0 rem) + vz (l1 rem) * 2 ^ 68 + vz (l2 rem) * 2 ^ 136 + vz (l3 rem) * 2 ^ 204)
          with (vz (l0 rem) + (vz (l1 rem) + vz (l2 rem) * 2 ^ 68 + vz (l3 rem) * 2 ^ 136) * 2 ^ 68) by ring.
        rewrite Z_mod_plus_full, Z.mod_small; [reflexivity|]. destruct Br as (Br0 & _). pose proof (vz_rng (l0 rem)). lia. }
      rewrite E0r. apply (f_equal (@ofZ N)) in DV. rewrite ofZ_mul in DV.
      refine (eq_trans _ (proj2 (fsub_eq0 _ _ _) DV)). unfold P. pushz. ring. }
    intros ? c6 _ L6 _ _. apply cpl_ret. split; [now apply (ok_le c5 c6)|].
    split; [rewrite (same_bn _ _ Srn); exact Er|]. split; [now apply (same_vbnd rem)|].
    transitivity (overflows rem); [apply Srn|assumption].
  Qed.

  (** result of an operation that may reduce: the exact integer [v], or its
      canonical representative *)
  Definition vres c (r : aint N) (K : Z) (ov : nat) (v : Z) : Prop :=
    ok c r /\ ((overflows r = ov /\ (ov < 32)%nat /\ vbnd r K /\ bn_of r = v) \/ ((32 <= ov)%nat /\ canon c r v)).
  Lemma cond_reduce_cpl c a K :
    ok c a -> (overflows a < 64)%nat -> 0 <= K <= 64 -> vbnd a K ->
    cpl c (conditionally_reduce W a) (fun r c' => vres c' r K (overflows a) (bn_of a)).
  Proof.
    intros Oa Ova HK Ba. unfold conditionally_reduce, OVERFLOW_THRESHOLD. destruct (Nat.leb_spec 32 (overflows a)) as [H|H].
    - eapply cpl_conseq; [now apply (reduce_cpl c a K)|]. intros r c' _ _ _ Hr.
      destruct (Nat.eqb_spec (overflows a) 0); [lia|]. split; [apply Hr|]. right. auto.
    - apply cpl_ret. split; [assumption|]. left. auto.
  Qed.
End Complete.
