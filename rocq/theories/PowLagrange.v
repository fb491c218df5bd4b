(** Proofs: constant exponentiation (field.rs) and Lagrange values (lagrange.rs). *)
From Coq Require Import NArith ZArith Arith Bool Lia Ring Field List ZifyBool ZifyNat ZifyN.
From Verif Require Import Util Algebra Poly Schema Plonk.
Import ListNotations.
Ltac Zify.zify_post_hook ::= Z.div_mod_to_equations.

Section Pow.
  Variable F : Fld.
  Local Open Scope fld_scope.
  Add Field FPow : (f_th F).

  Lemma pow2_split a b : (a <= b -> 2 ^ b = 2 ^ a * 2 ^ (b - a))%N.
  Proof. intro H. rewrite <- N.pow_add_r. f_equal. lia. Qed.

  Lemma pow_top_spec : forall fuel e k,
    (1 <= e < 2 ^ 31)%N -> (k <= N.log2 e + 1)%N -> (N.to_nat (N.log2 e + 1 - k) <= fuel)%nat ->
    pow_top fuel e (2 ^ k) = Some (2 ^ (N.log2 e + 1))%N.
  Proof.
    induction fuel as [|fuel IH]; intros e k He Hk Hf; cbn [pow_top].
    - assert (k = N.log2 e + 1)%N by lia. subst k.
      destruct (N.log2_spec e) as [_ H]; [lia|].
      rewrite N.add_1_r. destruct (N.leb_spec (2 ^ N.succ (N.log2 e)) e) as [L|L]; [lia|reflexivity].
    - destruct (N.log2_spec e) as [H1 H2]; [lia|].
      destruct (N.leb_spec (2 ^ k) e) as [L|L].
      + assert (Hlt : (k < N.log2 e + 1)%N).
        { destruct (N.eq_dec k (N.log2 e + 1)) as [E|E]; [|lia].
          rewrite E, N.add_1_r in L. lia. }
        assert (L31 : (N.log2 e < 31)%N) by (apply N.log2_lt_pow2; lia).
        assert (S1 : (2 ^ k * 2 = 2 ^ (k + 1))%N) by (rewrite N.pow_add_r; reflexivity).
        rewrite S1, N.mod_small.
        * apply IH; [assumption|lia|lia].
        * apply N.pow_lt_mono_r; lia.
      + f_equal. f_equal.
        destruct (N.eq_dec k (N.log2 e + 1)) as [E|E]; [exact E|].
        assert (Hle : (k <= N.log2 e)%N) by lia.
        assert (2 ^ k <= 2 ^ N.log2 e)%N by (apply N.pow_le_mono_r; lia). lia.
  Qed.

  Lemma fpow_double (b : F) n : fpow b (n + n) = fpow b n * fpow b n.
  Proof. apply fpow_add. Qed.

  Lemma pow_loop_spec (base : F) (e : N) : forall fuel j acc,
    (N.to_nat j < fuel)%nat ->
    acc = fpow base (N.to_nat (e / 2 ^ (j + 1))) ->
    pow_loop fuel base e (2 ^ j) acc = Some (fpow base (N.to_nat e)).
  Proof.
    induction fuel as [|fuel IH]; intros j acc Hf Ha; [lia|].
    cbn [pow_loop].
    assert (P : (2 ^ j <> 0)%N) by (apply N.pow_nonzero; lia).
    destruct (N.eqb_spec (2 ^ j) 0) as [E|_]; [contradiction|].
    set (acc' := if (N.land e (2 ^ j) =? 0)%N then acc * acc else acc * acc * base).
    assert (HB : N.land e (2 ^ j) = if N.testbit e j then (2 ^ j)%N else 0%N).
    { apply N.bits_inj. intro m. rewrite N.land_spec, N.pow2_bits_eqb.
      destruct (N.eqb_spec j m) as [<-|Hm].
      - rewrite andb_true_r. destruct (N.testbit e j) eqn:T; [now rewrite N.pow2_bits_true|now rewrite N.bits_0].
      - rewrite andb_false_r. destruct (N.testbit e j); [now rewrite N.pow2_bits_false|now rewrite N.bits_0]. }
    assert (HD : (e / 2 ^ j = 2 * (e / 2 ^ (j + 1)) + N.b2n (N.testbit e j))%N).
    { rewrite N.testbit_spec' by idtac.
      replace (2 ^ (j + 1))%N with (2 ^ j * 2)%N by (rewrite N.pow_add_r; reflexivity).
      rewrite <- N.div_div by lia. apply N.div_mod. lia. }
    assert (Ha' : acc' = fpow base (N.to_nat (e / 2 ^ j))).
    { unfold acc'. rewrite HD, HB, Ha.
      destruct (N.testbit e j); cbn [N.b2n].
      - destruct (N.eqb_spec (2 ^ j) 0) as [E|_]; [contradiction|].
        replace (N.to_nat (2 * (e / 2 ^ (j + 1)) + 1))
          with (N.to_nat (e / 2 ^ (j + 1)) + N.to_nat (e / 2 ^ (j + 1)) + 1)%nat by lia.
        rewrite !fpow_add. cbn [fpow]. ring.
      - cbn [N.eqb].
        replace (N.to_nat (2 * (e / 2 ^ (j + 1)) + 0))
          with (N.to_nat (e / 2 ^ (j + 1)) + N.to_nat (e / 2 ^ (j + 1)))%nat by lia.
        now rewrite fpow_add. }
    destruct (N.eq_dec j 0) as [->|Hj].
    - change (2 ^ 0 / 2)%N with 0%N. rewrite Ha'. change (2 ^ 0)%N with 1%N. rewrite N.div_1_r.
      destruct fuel; reflexivity.
    - replace (2 ^ j / 2)%N with (2 ^ (j - 1))%N.
      + apply IH; [lia|]. rewrite Ha'. do 4 f_equal. lia.
      + replace j with (j - 1 + 1)%N at 2 by lia. rewrite N.pow_add_r.
        change (2 ^ 1)%N with 2%N. now rewrite N.div_mul by lia.
  Qed.

  Lemma pow_constant_ok (fuel : nat) (base : F) (e : N) :
    (1 <= e < 2 ^ 31)%N -> (33 <= fuel)%nat ->
    pow_constant fuel base e = Some (fpow base (N.to_nat e)).
  Proof.
    intros He Hf. unfold pow_constant.
    destruct (N.leb_spec 1 e) as [_|?]; [|lia].
    assert (L31 : (N.log2 e < 31)%N) by (apply N.log2_lt_pow2; lia).
    change 1%N with (2 ^ 0)%N. rewrite pow_top_spec by lia.
    destruct (N.eq_dec (N.log2 e) 0) as [E|E].
    - rewrite E. change (2 ^ (0 + 1) / 4)%N with 0%N.
      assert (e = 1)%N.
      { destruct (N.log2_spec e) as [_ H]; [lia|]. rewrite E in H. change (2 ^ N.succ 0)%N with 2%N in H. lia. }
      subst e. destruct fuel; [lia|]. cbn. f_equal. change (Pos.to_nat 1) with 1%nat. cbn [fpow]. ring.
    - replace (2 ^ (N.log2 e + 1) / 4)%N with (2 ^ (N.log2 e - 1))%N.
      + apply pow_loop_spec; [lia|].
        replace (N.log2 e - 1 + 1)%N with (N.log2 e) by lia.
        replace (e / 2 ^ N.log2 e)%N with 1%N; [change (N.to_nat 1) with 1%nat; cbn [fpow]; ring|].
        destruct (N.log2_spec e) as [H1 H2]; [lia|]. rewrite N.pow_succ_r' in H2.
        apply (N.div_unique _ _ _ (e - 2 ^ N.log2 e)); lia.
      + replace (N.log2 e + 1)%N with (N.log2 e - 1 + 2)%N by lia.
        rewrite N.pow_add_r. change (2 ^ 2)%N with 4%N. now rewrite N.div_mul by lia.
  Qed.

  (** From 2^31 on the first loop never ends. *)
  Lemma pow_top_diverges : forall fuel e sb,
    (2 ^ 31 <= e)%N -> (sb = 0 \/ exists k, k <= 31 /\ sb = 2 ^ k)%N -> pow_top fuel e sb = None.
  Proof.
    induction fuel as [|fuel IH]; intros e sb He Hs; cbn [pow_top].
    - destruct (N.leb_spec sb e) as [_|L]; [reflexivity|].
      destruct Hs as [->|[k [Hk ->]]]; [lia|].
      assert (2 ^ k <= 2 ^ 31)%N by (apply N.pow_le_mono_r; lia). lia.
    - assert (L : (sb <= e)%N).
      { destruct Hs as [->|[k [Hk ->]]]; [lia|].
        assert (2 ^ k <= 2 ^ 31)%N by (apply N.pow_le_mono_r; lia). lia. }
      apply N.leb_le in L. rewrite L. apply IH; [assumption|].
      destruct Hs as [->|[k [Hk ->]]]; [left; reflexivity|].
      destruct (N.eq_dec k 31) as [->|Hk'].
      + left. reflexivity.
      + right. exists (k + 1)%N. split; [lia|].
        rewrite N.mod_small; [rewrite N.pow_add_r; reflexivity|].
        assert (2 ^ k <= 2 ^ 30)%N by (apply N.pow_le_mono_r; lia).
        change (2 ^ 30)%N with 1073741824%N in *. change (2 ^ 32)%N with 4294967296%N. lia.
  Qed.

  Lemma pow_constant_diverges (fuel : nat) (base : F) (e : N) :
    (2 ^ 31 <= e)%N -> pow_constant fuel base e = None.
  Proof.
    intro He. unfold pow_constant. destruct (N.leb_spec 1 e) as [_|?]; [|reflexivity].
    rewrite pow_top_diverges; [reflexivity|assumption|]. right. exists 0%N. split; [lia|reflexivity].
  Qed.
End Pow.

Section Lagrange.
  Variable F : Fld.
  Local Open Scope fld_scope.
  Add Field FLag : (f_th F).
  Notation poly := (list F).
  (** value of the polynomial with the given coefficients (increasing degree) *)
  Definition feval (p : poly) (x : F) : F := @peval F (self_mod F) p x.
  Lemma feval_cons a p x : feval (a :: p) x = a + x * feval p x.
  Proof. reflexivity. Qed.

  Lemma inv_pow_0 (w : F) k : w <> 0 -> fpow (finv w) k * fpow w k = 1.
  Proof.
    intro H. rewrite <- fpow_mul_base.
    replace (finv w * w) with (1 : F) by (field; exact H). apply fpow_1.
  Qed.

  Lemma finv_neq0 (w : F) : w <> 0 -> finv w <> 0.
  Proof.
    intros H E. apply (f1_neq_0 F). transitivity (finv w * w); [field; exact H|]. rewrite E. ring.
  Qed.

  Lemma lagrange_ws_spec l : forall w omega : F,
    omega <> 0 ->
    lagrange_ws l w omega = Some (map (fun i => w * fpow (finv omega) i) (seq 0 (S l))).
  Proof.
    induction l as [|l IH]; intros w omega Ho.
    - cbn. do 2 f_equal. ring.
    - cbn [lagrange_ws]. unfold chip_div. destruct (feq_dec omega 0) as [E|_]; [contradiction|].
      rewrite IH by assumption.
      change (seq 0 (S (S l))) with (0%nat :: seq 1 (S l)).
      rewrite <- (seq_shift (S l) 0), map_cons, map_map. f_equal. f_equal; [cbn; ring|].
      apply map_ext. intro i. cbn [fpow]. ring.
  Qed.

  (** geometric sum as a polynomial value: 1 + r + ... + r^(n-1) *)
  Fixpoint gsum (r : F) (n : nat) : F :=
    match n with O => 0 | S n => 1 + r * gsum r n end.

  Lemma gsum_spec r n : (r - 1) * gsum r n = fpow r n - 1.
  Proof.
    induction n as [|n IH]; cbn [gsum fpow]; [ring|].
    transitivity (r * ((r - 1) * gsum r n) + r - 1); [ring|]. rewrite IH. ring.
  Qed.

  Lemma gsum_1 n : gsum 1 n = (fix nat_f (n : nat) : F := match n with O => 0 | S n => 1 + nat_f n end) n.
  Proof. induction n as [|n IH]; cbn [gsum]; [reflexivity|]. rewrite <- IH. ring. Qed.

  (** the image of a natural number in the field *)
  Fixpoint nat_f (n : nat) : F := match n with O => 0 | S n => 1 + nat_f n end.

  (** coefficients of c * (1 + r X + r^2 X^2 + ... ) *)
  Fixpoint gpoly (c r : F) (n : nat) : poly :=
    match n with O => [] | S n => c :: gpoly (c * r) r n end.

  Lemma gpoly_length c r n : length (gpoly c r n) = n.
  Proof. revert c; induction n as [|n IH]; intro c; cbn; [reflexivity|]. now rewrite IH. Qed.

  Lemma gpoly_eval c r n x : feval (gpoly c r n) x = c * gsum (r * x) n.
  Proof.
    revert c; induction n as [|n IH]; intro c; cbn [gpoly gsum].
    - unfold feval; cbn. ring.
    - rewrite feval_cons, IH. ring.
  Qed.

  (** [omega] is a primitive [n]-th root of unity. *)
  Definition primitive_root (omega : F) (n : nat) : Prop :=
    (0 < n)%nat /\ fpow omega n = 1 /\ forall k, (0 < k < n)%nat -> fpow omega k <> 1.

  Definition domain (omega : F) (n : nat) : list F := map (fpow omega) (seq 0 n).

  Lemma primitive_neq0 omega n : primitive_root omega n -> omega <> 0.
  Proof.
    intros [Hn [H1 _]] E. subst. destruct n; [lia|]. cbn in H1. apply (f1_neq_0 F). rewrite <- H1. ring.
  Qed.

  Lemma fpow_inj omega n i j : primitive_root omega n -> (i < n)%nat -> (j < n)%nat ->
    fpow omega i = fpow omega j -> i = j.
  Proof.
    intros P.
    assert (G : forall i j, (i < j)%nat -> (j < n)%nat -> fpow omega i <> fpow omega j).
    { intros a b Hab Hb E. destruct P as [Hn [H1 H2]].
      apply (H2 (b - a)%nat); [lia|].
      apply (fmul_cancel_l F (fpow omega a)).
      - apply fpow_neq0. apply (primitive_neq0 omega n). repeat split; auto.
      - rewrite <- fpow_add. replace (a + (b - a))%nat with b by lia. rewrite <- E. ring. }
    intros Hi Hj E. destruct (lt_eq_lt_dec i j) as [[H|H]|H]; [|assumption|].
    - exfalso. now apply (G i j).
    - exfalso. symmetry in E. now apply (G j i).
  Qed.

  Lemma NoDup_map_inj_in {A B} (f : A -> B) l :
    (forall x y, In x l -> In y l -> f x = f y -> x = y) -> NoDup l -> NoDup (map f l).
  Proof.
    induction l as [|a l IH]; cbn; intros Hf ND; [constructor|].
    inversion ND as [|? ? N1 N2]; subst. constructor.
    - rewrite in_map_iff. intros [y [E Hy]]. apply Hf in E; [|now right|now left]. subst; contradiction.
    - apply IH; [|assumption]. intros; apply Hf; auto.
  Qed.

  Lemma domain_nodup omega n : primitive_root omega n -> NoDup (domain omega n).
  Proof.
    intro P. unfold domain. apply NoDup_map_inj_in; [|apply seq_NoDup].
    intros i j Hi Hj E. apply in_seq in Hi. apply in_seq in Hj.
    apply (fpow_inj omega n); auto; lia.
  Qed.

  (** The polynomial (w^-1-geometric) is the Lagrange basis polynomial of node w. *)
  Lemma lagrange_poly omega n (w : F) :
    primitive_root omega n -> fpow w n = 1 -> nat_f n <> 0 ->
    let q := gpoly (finv (nat_f n)) (finv w) n in
    feval q w = 1 /\ (forall z, fpow z n = 1 -> z <> w -> feval q z = 0) /\
    (forall x, x <> w -> feval q x = (w * finv (nat_f n)) * (fpow x n - 1) * finv (x - w)).
  Proof.
    intros P Hw Hn q.
    assert (Hn0 : (0 < n)%nat) by (destruct P; assumption).
    assert (W0 : w <> 0).
    { intros ->. destruct n; [lia|]. cbn in Hw. apply (f1_neq_0 F). rewrite <- Hw. ring. }
    assert (GX : forall x, x <> w -> feval q x = (w * finv (nat_f n)) * (fpow x n - 1) * finv (x - w)).
    { intros x Hx. unfold q. rewrite gpoly_eval.
      assert (E := gsum_spec (finv w * x) n).
      rewrite fpow_mul_base in E.
      assert (Fi : fpow (finv w) n = 1) by (rewrite <- (inv_pow_0 w n W0), Hw; ring).
      rewrite Fi in E.
      assert (D : x - w <> 0) by (rewrite fsub_eq0; exact Hx).
      assert (D2 : finv w * x - 1 <> 0).
      { intro Z. apply D. transitivity (w * (finv w * x - 1)); [field; exact W0|]. rewrite Z. ring. }
      assert (G : gsum (finv w * x) n = (fpow x n - 1) * finv (finv w * x - 1)).
      { apply (fmul_cancel_l F (finv w * x - 1)); [exact D2|]. rewrite E. field. split; [exact W0|].
        intro Z. apply D. rewrite <- Z. reflexivity. }
      rewrite G. field. repeat split; auto. }
    split; [|split].
    - unfold q. rewrite gpoly_eval. replace (finv w * w) with (1 : F) by (field; exact W0).
      rewrite gsum_1. fold nat_f. field. exact Hn.
    - intros z Hz Hzw. rewrite (GX z Hzw), Hz. ring.
    - exact GX.
  Qed.

  (** Full statement of the Lagrange property: every entry returned is the value
      at [x] of every polynomial of degree < n that is 1 at omega^-i and 0 on the
      rest of the domain. *)
  Lemma get_lagrange_commits_ok (l n : nat) (omega x : F) :
    primitive_root omega n -> nat_f n <> 0 ->
    (forall i, (i <= l)%nat -> x <> fpow (finv omega) i) ->
    exists ls, get_lagrange_commits l (nat_f n) x (fpow x n) 1 omega = Some ls /\
      length ls = S l /\
      forall i, (i <= l)%nat ->
        forall p : poly, (length p <= n)%nat -> feval p (fpow (finv omega) i) = 1 ->
          (forall z, In z (domain omega n) -> z <> fpow (finv omega) i -> feval p z = 0) ->
          nth_error ls i = Some (feval p x).
  Proof.
    intros P Hn Hx.
    assert (O0 := primitive_neq0 omega n P).
    unfold get_lagrange_commits. rewrite (lagrange_ws_spec l 1 omega O0).
    set (g := fun wi => (wi * finv (nat_f n)) * (fpow x n - 1) * finv (x - wi)).
    assert (Wi : forall i, 1 * fpow (finv omega) i = fpow (finv omega) i) by (intro; ring).
    rewrite (mapM_Some _ g).
    2: { intros wi Hwi. apply in_map_iff in Hwi. destruct Hwi as [i [<- Hi]]. apply in_seq in Hi.
         rewrite Wi. cbn. unfold chip_div.
         destruct (feq_dec (nat_f n) 0) as [?|_]; [contradiction|].
         destruct (feq_dec (x - fpow (finv omega) i) 0) as [E|_].
         - exfalso. apply (Hx i); [lia|]. apply (fsub_eq0 F). exact E.
         - reflexivity. }
    eexists. split; [reflexivity|]. split; [now rewrite !map_length, seq_length|].
    intros i Hi p Lp P1 P0.
    rewrite map_map, nth_error_map, nth_error_nth' with (d := 0%nat) by (rewrite seq_length; lia).
    rewrite seq_nth by lia. cbn [option_map Nat.add]. f_equal. rewrite Wi.
    set (w := fpow (finv omega) i) in *.
    assert (Hw : fpow w n = 1).
    { unfold w. rewrite fpow_pow, Nat.mul_comm, <- fpow_pow.
      replace (fpow (finv omega) n) with (1 : F); [apply fpow_1|].
      destruct P as [_ [P2 _]]. rewrite <- (inv_pow_0 omega n O0), P2. ring. }
    destruct (lagrange_poly omega n w P Hw Hn) as [Q1 [Q2 Q3]].
    set (q := gpoly (finv (nat_f n)) (finv w) n) in *.
    assert (WD : In w (domain omega n)).
    { (* omega^-i = omega^((n - i mod n) mod n) *)
      unfold domain. apply in_map_iff. destruct P as [Hn0 [P1' P2']].
      exists ((n - i mod n) mod n)%nat. split; [|apply in_seq; split; [lia|]; apply Nat.mod_upper_bound; lia].
      apply (fmul_cancel_l F (fpow omega i)); [now apply fpow_neq0|].
      unfold w. replace (fpow omega i * fpow (finv omega) i) with (1 : F)
        by (rewrite <- (inv_pow_0 omega i O0); ring).
      rewrite <- fpow_add.
      assert (PM : forall k, fpow omega (n * k) = 1) by (intro k; rewrite <- fpow_pow, P1'; apply fpow_1).
      assert (exists k, i + (n - i mod n) mod n = n * k)%nat as [k ->]; [|apply PM].
      assert (Hm := Nat.mod_upper_bound i n ltac:(lia)).
      assert (Hd := Nat.div_mod i n ltac:(lia)).
      destruct (Nat.eq_dec (i mod n) 0) as [E|E].
      - exists (i / n)%nat. rewrite E, Nat.sub_0_r, Nat.mod_same by lia. lia.
      - exists (i / n + 1)%nat. rewrite (Nat.mod_small (n - i mod n)) by lia. nia. }
    transitivity (feval q x).
    - symmetry. apply Q3. apply Hx. exact Hi.
    - symmetry. apply (interpolation_unique F (self_mod F) (domain omega n)).
      + apply domain_nodup; exact P.
      + unfold domain. rewrite map_length, seq_length. exact Lp.
      + unfold domain. rewrite map_length, seq_length. unfold q. rewrite gpoly_length. lia.
      + intros c Hc. change (feval p c = feval q c). destruct (feq_dec c w) as [->|E]; [rewrite P1, Q1; reflexivity|].
        rewrite (P0 c Hc E). symmetry. apply Q2; [|exact E].
        unfold domain in Hc. apply in_map_iff in Hc. destruct Hc as [k [<- _]].
        rewrite fpow_pow, Nat.mul_comm, <- fpow_pow. destruct P as [_ [-> _]]. apply fpow_1.
  Qed.

  (** The panic case: x on one of the used domain points. *)
  Lemma get_lagrange_commits_panics (l n : nat) (omega x : F) :
    omega <> 0 -> (exists i, (i <= l)%nat /\ x = fpow (finv omega) i) ->
    get_lagrange_commits l (nat_f n) x (fpow x n) 1 omega = None.
  Proof.
    intros O0 [i [Hi ->]]. unfold get_lagrange_commits. rewrite (lagrange_ws_spec l 1 omega O0).
    set (ws := map _ _). set (x := fpow (finv omega) i).
    assert (IN : In x ws).
    { unfold ws. apply in_map_iff. exists i. split; [unfold x; ring|apply in_seq; lia]. }
    clearbody ws. induction ws as [|w ws IH]; [destruct IN|]. cbn [mapM].
    destruct IN as [->|IN].
    - cbn. unfold chip_div. destruct (feq_dec (nat_f n) 0) as [?|_]; [reflexivity|].
      destruct (feq_dec (x - x) 0) as [_|E]; [reflexivity|]. exfalso. apply E. ring.
    - rewrite (IH IN). destruct (ast_eval _); reflexivity.
  Qed.
End Lagrange.
