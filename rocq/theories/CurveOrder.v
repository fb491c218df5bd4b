(** Every point of BN254 G1 lies in the group generated by (1, 2), whose order is
    [fr_mod]: the curve has at most [2 p + 1] points, fewer than three times that order, and
    no point of order two.  Models no code; it discharges the order hypothesis of the scalar
    multiplication theorems. *)
From Coq Require Import ZArith NArith Znumtheory Lia List Bool Ring Field.
From Verif Require Import Util Algebra PField Bn254 Bn254Prime Curve CurveAssoc Bn254Curve EccHistory GeneratorOrder.
Import ListNotations.
Local Open Scope Z_scope.

(** An injective function on [0, m) with values in [0, k). *)
Lemma pigeon (f : Z -> Z) (m k : Z) : 0 <= m -> 0 <= k -> (forall i, 0 <= i < m -> 0 <= f i < k) ->
  (forall i j, 0 <= i < m -> 0 <= j < m -> f i = f j -> i = j) -> m <= k.
Proof.
  intros Hm Hk R I. set (l := map (fun i => f (Z.of_nat i)) (seq 0 (Z.to_nat m))).
  assert (D : NoDup l).
  { unfold l. assert (G : forall n a, (a + n <= Z.to_nat m)%nat -> NoDup (map (fun i => f (Z.of_nat i)) (seq a n))).
    { induction n as [|n IH]; intros a L; [constructor|]. cbn [seq map]. constructor; [|apply IH; lia].
      intro H. apply in_map_iff in H as (j & E & Hj). apply in_seq in Hj. apply I in E; lia. }
    apply G. lia. }
  assert (J : incl l (map Z.of_nat (seq 0 (Z.to_nat k)))).
  { intros z Hz. apply in_map_iff in Hz as (i & <- & Hi). apply in_seq in Hi. specialize (R (Z.of_nat i) ltac:(lia)).
    apply in_map_iff. exists (Z.to_nat (f (Z.of_nat i))). split; [lia|]. apply in_seq. lia. }
  apply NoDup_incl_length in J; [|exact D]. unfold l in J. rewrite !map_length, !seq_length in J. lia.
Qed.

Section Order.
  Variable W : PF.
  Variable b : W.
  Hypothesis two : (fadd f1 f1 : W) <> f0.
  Hypothesis noy : forall x y : W, on_curve b (Aff x y) -> y <> f0.
  Hypothesis odd_p : pf_n W mod 2 = 1.
  Variable g : point W.
  Variable n : Z.
  Hypothesis g_on : on_curve b g.
  Hypothesis g_fin : g <> Inf.
  Hypothesis n_prime : prime n.
  Hypothesis n_odd : n mod 2 = 1.
  Hypothesis g_order : smul (Z.to_N n) g = Inf.
  Hypothesis few : 2 * pf_n W + 1 < 3 * n.
  Local Notation on := (on_curve b).
  Local Notation mul k P := (smul (Z.to_N k) P).

  Definition code (P : point W) : Z := match P with Inf => 2 * pf_n W | Aff x y => 2 * toZ x + toZ y mod 2 end.
  Lemma code_rng P : 0 <= code P < 2 * pf_n W + 1.
  Proof.
    destruct P as [|x y]; cbn [code].
    - pose proof (prime_ge_2 _ (pf_prime W)). lia.
    - pose proof (toZ_range W x). pose proof (Z.mod_pos_bound (toZ y) 2 ltac:(lia)). lia.
  Qed.
  Lemma opp_sum (y y' : W) : y <> f0 -> fadd y y' = f0 -> toZ y + toZ y' = pf_n W.
  Proof.
    intros N0 E. pose proof (toZ_range W y). pose proof (toZ_range W y').
    assert (toZ y <> 0) by (intro H1; apply N0; now apply toZ_eq0).
    assert (D : (toZ y + toZ y') mod pf_n W = 0).
    { rewrite <- toZ_ofZ, ofZ_add, !ofZ_toZ, E. apply toZ_0. }
    apply Z.mod_divide in D; [|lia]. destruct D as [q D]. assert (q = 1) by nia. lia.
  Qed.
  Lemma code_inj P Q : on P -> on Q -> code P = code Q -> P = Q.
  Proof.
    destruct P as [|x y], Q as [|x' y']; intros HP HQ E; cbn [code] in E; try reflexivity.
    - exfalso. pose proof (toZ_range W x'). pose proof (Z.mod_pos_bound (toZ y') 2 ltac:(lia)). lia.
    - exfalso. pose proof (toZ_range W x). pose proof (Z.mod_pos_bound (toZ y) 2 ltac:(lia)). lia.
    - pose proof (Z.mod_pos_bound (toZ y) 2 ltac:(lia)). pose proof (Z.mod_pos_bound (toZ y') 2 ltac:(lia)).
      assert (Ex : toZ x = toZ x') by lia. assert (Ey : toZ y mod 2 = toZ y' mod 2) by lia. apply toZ_inj in Ex. subst x'. f_equal.
      destruct (same_x W b x y y' HP HQ) as [H1|H1]; [exact H1|exfalso].
      apply opp_sum in H1; [|exact (noy _ _ HP)]. rewrite <- H1, Z.add_mod in odd_p by lia. rewrite Ey in odd_p. clear -odd_p.
      pose proof (Z.mod_pos_bound (toZ y') 2 ltac:(lia)).
      assert (C : toZ y' mod 2 = 0 \/ toZ y' mod 2 = 1) by lia. destruct C as [C|C]; rewrite C in odd_p; cbn in odd_p; discriminate.
  Qed.

  Lemma n_pos : 0 < n. Proof. pose proof (prime_ge_2 _ n_prime). lia. Qed.
  Lemma mul_on k P : on P -> on (mul k P). Proof. apply smul_on. Qed.
  Lemma mul_add j k P : 0 <= j -> 0 <= k -> on P -> mul (j + k) P = padd (mul j P) (mul k P).
  Proof. intros Hj Hk HP. rewrite Z2N.inj_add by lia. exact (smul_add W b two noy _ _ P HP). Qed.
  Lemma mul_mul j k P : 0 <= j -> 0 <= k -> on P -> mul (j * k) P = mul j (mul k P).
  Proof. intros Hj Hk HP. rewrite Z2N.inj_mul by lia. exact (smul_mul W b two noy _ _ P HP). Qed.
  Lemma mul_order k : 0 <= k -> mul (k * n) g = Inf.
  Proof. intro Hk. pose proof n_pos. rewrite mul_mul by (auto; lia). rewrite g_order. apply smul_inf. Qed.

  (** No smaller multiple of the generator is the identity. *)
  Lemma order_min d : 0 < d < n -> mul d g <> Inf.
  Proof.
    intros Hd E. apply g_fin.
    assert (R : rel_prime d n) by (apply rel_prime_sym, prime_rel_prime; [exact n_prime|]; intro Hq; apply Z.divide_pos_le in Hq; lia).
    apply rel_prime_bezout in R. destruct R as [u v Huv].
    set (u' := u mod n). set (m := (u' * d) / n).
    assert (Hu : 0 <= u' < n) by (apply Z.mod_pos_bound; lia).
    assert (E1 : (u' * d) mod n = 1).
    { unfold u'. rewrite Z.mul_mod_idemp_l by lia. replace (u * d) with (1 + (- v) * n) by lia. rewrite Z_mod_plus_full. apply Z.mod_small. lia. }
    assert (E2 : u' * d = m * n + 1) by (pose proof (Z.div_mod (u' * d) n ltac:(lia)); unfold m; lia).
    assert (Hm : 0 <= m) by (apply Z.div_pos; nia).
    assert (F1 : mul (u' * d) g = Inf) by (rewrite mul_mul by (auto; lia); rewrite E; apply smul_inf).
    rewrite E2, mul_add in F1 by (auto; nia). rewrite mul_order in F1 by lia. change (Z.to_N 1) with 1%N in F1. rewrite smul_1 in F1. exact F1.
  Qed.
  Lemma mul_cancel a c P Q : 0 <= a < n -> 0 <= c < n -> on P -> on Q -> padd P (mul a g) = padd Q (mul c g) ->
    P = padd Q (mul (c + (n - a)) g).
  Proof.
    intros Ha Hc HP HQ E. apply (f_equal (fun R => padd R (mul (n - a) g))) in E.
    rewrite !(padd_assoc W b two noy) in E by auto using mul_on. rewrite <- !mul_add in E by (auto; lia).
    replace (a + (n - a)) with (1 * n) in E by lia. rewrite mul_order, padd_inf_r in E by lia. exact E.
  Qed.
  Lemma mul_inj a c : 0 <= a < n -> 0 <= c < n -> mul a g = mul c g -> a = c.
  Proof.
    assert (G : forall a c, 0 <= a < n -> 0 <= c < n -> a < c -> mul a g = mul c g -> False).
    { clear a c. intros a c Ha Hc L E. apply (order_min (c - a)); [lia|]. replace c with (a + (c - a)) in E by lia.
      rewrite mul_add in E by (auto; lia). symmetry in E. apply (padd_cancel_l W b two noy (mul a g)); auto using mul_on; [exact I|].
      now rewrite padd_inf_r. }
    intros Ha Hc E. destruct (Z.lt_trichotomy a c) as [L|[L|L]]; [destruct (G a c Ha Hc L E)|exact L|destruct (G c a Hc Ha L (eq_sym E))].
  Qed.

  (** Twice every point is a multiple of the generator: otherwise the curve had three
      disjoint cosets. *)
  Definition generated (P : point W) : Prop := exists k, 0 <= k /\ mul k g = P.
  Definition coset (P : point W) (i : Z) : point W := padd (mul (i / n) P) (mul (i mod n) g).
  Lemma three_cosets P : on P -> ~ generated P -> ~ generated (mul 2 P) -> 3 * n <= 2 * pf_n W + 1.
  Proof.
    intros HP N1 N2. pose proof n_pos as Hn. pose proof (prime_ge_2 _ (pf_prime W)).
    assert (Ho : forall i, 0 <= i < 3 * n -> on (coset P i)) by (intros i Hi; apply padd_on; auto using mul_on).
    apply (pigeon (fun i => code (coset P i))); [lia|lia|intros i _; apply code_rng|].
    assert (G : forall i j, 0 <= i < 3 * n -> 0 <= j < 3 * n -> coset P i = coset P j -> j / n < i / n -> False).
    { intros i j Hi Hj E L. unfold coset in E. assert (Hi' : 0 <= i / n < 3) by (split; [apply Z.div_pos; lia|apply Z.div_lt_upper_bound; lia]).
      assert (Hj' : 0 <= j / n) by (apply Z.div_pos; lia).
      pose proof (Z.mod_pos_bound i n Hn). pose proof (Z.mod_pos_bound j n Hn).
      apply mul_cancel in E; auto using mul_on. replace (i / n) with (j / n + (i / n - j / n)) in E by lia. rewrite mul_add in E by (auto; lia).
      apply (padd_cancel_l W b two noy) in E; auto using mul_on.
      assert (D : generated (mul (i / n - j / n) P)) by (exists (j mod n + (n - i mod n)); split; [lia|now rewrite E]).
      assert (C : i / n - j / n = 1 \/ i / n - j / n = 2) by lia. destruct C as [C|C]; rewrite C in D; [|exact (N2 D)].
      apply N1. change (Z.to_N 1) with 1%N in D. now rewrite smul_1 in D. }
    intros i j Hi Hj E. apply code_inj in E; auto. pose proof (Z.mod_pos_bound i n Hn). pose proof (Z.mod_pos_bound j n Hn).
    destruct (Z.lt_trichotomy (j / n) (i / n)) as [L|[L|L]]; [destruct (G i j Hi Hj E L)| |destruct (G j i Hj Hi (eq_sym E) L)].
    unfold coset in E. rewrite L in E. apply (padd_cancel_l W b two noy) in E; auto using mul_on. apply mul_inj in E; auto.
    pose proof (Z.div_mod i n ltac:(lia)). pose proof (Z.div_mod j n ltac:(lia)). nia.
  Qed.

  (** Halving within the generated group. *)
  Lemma double_inj P Q : on P -> on Q -> padd P P = padd Q Q -> P = Q.
  Proof.
    intros HP HQ E. set (R := padd P (pneg Q)). pose proof (pneg_on W b Q HQ) as HQ'. assert (HR : on R) by now apply padd_on.
    assert (E2 : padd R R = Inf).
    { unfold R. rewrite (padd_assoc W b two noy) by auto. rewrite <- (padd_assoc W b two noy (pneg Q)) by auto. rewrite (padd_comm W b (pneg Q) P) by auto.
      rewrite (padd_assoc W b two noy P (pneg Q)) by auto using padd_on. rewrite <- (padd_assoc W b two noy P P) by auto using padd_on.
      rewrite E, <- (pneg_padd W b two noy) by auto. apply (padd_neg W b). now apply padd_on. }
    apply (padd_opp W b) in E2; auto. assert (ER : R = Inf).
    { destruct R as [|x y] eqn:ER; [reflexivity|]. destruct (not_self_opp W b two noy x y HR). exact E2. }
    unfold R in ER. apply (padd_opp W b) in ER; auto. rewrite ER. apply pneg_pneg.
  Qed.
  Theorem all_generated P : on P -> generated P.
  Proof.
    intro HP. pose proof n_pos as Hn.
    assert (E2 : mul 2 P = padd P P).
    { change 2 with (1 + 1) at 1. rewrite mul_add by (auto; lia). change (Z.to_N 1) with 1%N. now rewrite smul_1. }
    assert (C : forall Q, on Q -> generated Q \/ ~ generated Q).
    { intros Q HQ. unfold generated.
      assert (D : forall m : nat, (exists k, 0 <= k < Z.of_nat m /\ mul k g = Q) \/ ~ (exists k, 0 <= k < Z.of_nat m /\ mul k g = Q)).
      { induction m as [|m [(k & Hk & E)|IH]]; [right; intros (k & Hk & _); lia|left; exists k; split; [lia|exact E]|].
        destruct (point_eq_dec W (mul (Z.of_nat m) g) Q) as [E|E]; [left; exists (Z.of_nat m); split; [lia|exact E]|right].
        intros (k & Hk & Ek). destruct (Z.eq_dec k (Z.of_nat m)) as [->|Nk]; [exact (E Ek)|]. apply IH. exists k. split; [lia|exact Ek]. }
      destruct (D (Z.to_nat n)) as [(k & Hk & E)|H]; [left; exists k; split; [lia|exact E]|right].
      intros (k & Hk & E). apply H. exists (k mod n). pose proof (Z.mod_pos_bound k n Hn). split; [lia|]. rewrite <- E.
      rewrite (Z.div_mod k n) at 2 by lia. rewrite Z.mul_comm. assert (0 <= k / n) by (apply Z.div_pos; lia).
      rewrite mul_add by (auto; nia). rewrite mul_order by lia. reflexivity. }
    destruct (C P HP) as [H|N1]; [exact H|]. destruct (C (mul 2 P) ltac:(auto using mul_on)) as [(k & Hk & E)|N2]; [|pose proof (three_cosets P HP N1 N2); lia].
    set (h := (n + 1) / 2). assert (Hh : 2 * h = n + 1).
    { pose proof (Z.div_mod (n + 1) 2 ltac:(lia)). assert ((n + 1) mod 2 = 0) by (rewrite Z.add_mod, n_odd by lia; reflexivity). unfold h. lia. }
    exists (k * h). split; [nia|]. apply double_inj; [auto using mul_on|exact HP|]. rewrite <- mul_add by (auto; nia).
    replace (k * h + k * h) with (k * n + k) by nia. rewrite mul_add by (auto; nia). rewrite mul_order by lia. rewrite E, E2. reflexivity.
  Qed.
  Theorem all_order P : on P -> mul n P = Inf.
  Proof.
    intro HP. destruct (all_generated P HP) as (k & Hk & <-). pose proof n_pos. rewrite <- mul_mul by (auto; lia). rewrite Z.mul_comm. now apply mul_order.
  Qed.
End Order.

Theorem on_curve_in_group (W : PF) (HW : pf_n W = fq_mod) (P : point W) : on_curve (ofZ 3) P -> in_group P.
Proof.
  intro HP. split; [exact HP|]. destruct (generator_order W HW) as [G1 G2].
  apply (all_order W (ofZ 3) (two_neq0 W HW) (no_ordinate_0 W HW)) with (g := G W); auto.
  - rewrite HW. reflexivity.
  - discriminate.
  - exact fr_prime.
  - rewrite HW. reflexivity.
Qed.
