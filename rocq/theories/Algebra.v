(** Shared algebra: bundled fields with decidable Leibniz equality and
    modules (vector spaces) over them, plus the concrete prime fields used by
    the examples.  Nothing here models repository code; it is the mathematical
    vocabulary in which the properties are stated. *)
From Coq Require Import ZArith Lia List Bool Field Znumtheory Eqdep_dec.
Import ListNotations.

(** A field (the scalar fields [C::Scalar], [N] of the Rust code). *)
Record Fld := mkFld {
  car :> Type;
  f0 : car; f1 : car;
  fadd : car -> car -> car;
  fmul : car -> car -> car;
  fsub : car -> car -> car;
  fopp : car -> car;
  fdiv : car -> car -> car;
  finv : car -> car;
  f_th : field_theory f0 f1 fadd fmul fsub fopp fdiv finv (@eq car);
  feq_dec : forall a b : car, {a = b} + {a <> b}
}.

Arguments f0 {_}. Arguments f1 {_}.
Arguments fadd {_} _ _. Arguments fmul {_} _ _. Arguments fsub {_} _ _.
Arguments fopp {_} _. Arguments fdiv {_} _ _. Arguments finv {_} _.
Arguments feq_dec {_} _ _.

Declare Scope fld_scope.
Delimit Scope fld_scope with F.
Notation "0" := f0 : fld_scope.
Notation "1" := f1 : fld_scope.
Infix "+" := fadd : fld_scope.
Infix "*" := fmul : fld_scope.
Infix "-" := fsub : fld_scope.
Infix "/" := fdiv : fld_scope.
Notation "- x" := (fopp x) : fld_scope.

(** A module over a field (the curve group [C] of prime order seen as a vector
    space over its scalar field). *)
Record Mod (F : Fld) := mkMod {
  mcar :> Type;
  m0 : mcar;
  madd : mcar -> mcar -> mcar;
  mopp : mcar -> mcar;
  smul : F -> mcar -> mcar;
  madd_assoc : forall a b c, madd a (madd b c) = madd (madd a b) c;
  madd_comm : forall a b, madd a b = madd b a;
  madd_0_l : forall a, madd m0 a = a;
  madd_opp : forall a, madd a (mopp a) = m0;
  smul_1 : forall a, smul f1 a = a;
  smul_add_l : forall s t a, smul (fadd s t) a = madd (smul s a) (smul t a);
  smul_add_r : forall s a b, smul s (madd a b) = madd (smul s a) (smul s b);
  smul_mul : forall s t a, smul (fmul s t) a = smul s (smul t a)
}.
Arguments m0 {_ _}. Arguments madd {_ _} _ _. Arguments mopp {_ _} _.
Arguments smul {_ _} _ _.
Definition msub {F} {M : Mod F} (a b : M) : M := madd a (mopp b).

(** Power with a natural exponent. *)
Fixpoint fpow {F : Fld} (x : F) (n : nat) : F :=
  match n with O => f1 | S k => fmul x (fpow x k) end.

Section FieldFacts.
  Variable F : Fld.
  Local Open Scope fld_scope.
  Add Field FF : (f_th F).

  Lemma f1_neq_0 : (1 : F) <> 0.
  Proof. exact (F_1_neq_0 (f_th F)). Qed.

  Lemma fmul_integral (a b : F) : a * b = 0 -> a = 0 \/ b = 0.
  Proof.
    intro H. destruct (feq_dec a 0) as [Ha|Ha]; [left; exact Ha|right].
    assert (E : b = finv a * (a * b)) by (field; exact Ha).
    rewrite E, H. ring.
  Qed.

  Lemma fmul_cancel_l (a b c : F) : a <> 0 -> a * b = a * c -> b = c.
  Proof.
    intros Ha H.
    assert (E : a * (b - c) = 0) by (transitivity (a * b - a * c); [ring|rewrite H; ring]).
    destruct (fmul_integral _ _ E) as [E1|E1]; [contradiction|].
    transitivity (b - c + c); [ring|rewrite E1; ring].
  Qed.

  Lemma fsub_eq0 (a b : F) : a - b = 0 <-> a = b.
  Proof.
    split; intro H; [|rewrite H; ring].
    transitivity (a - b + b); [ring|rewrite H; ring].
  Qed.

  Lemma fpow_add (x : F) n m : fpow x (n + m) = fpow x n * fpow x m.
  Proof. induction n as [|n IH]; cbn [fpow Nat.add]; [ring|rewrite IH; ring]. Qed.

  Lemma fpow_mul_base (x y : F) n : fpow (x * y) n = fpow x n * fpow y n.
  Proof. induction n as [|n IH]; cbn [fpow]; [ring|rewrite IH; ring]. Qed.

  Lemma fpow_1 n : fpow (1 : F) n = 1.
  Proof. induction n as [|n IH]; cbn [fpow]; [reflexivity|rewrite IH; ring]. Qed.

  Lemma fpow_pow (x : F) n m : fpow (fpow x n) m = fpow x (n * m).
  Proof.
    induction m as [|m IH]; cbn [fpow].
    - now rewrite Nat.mul_0_r.
    - rewrite IH, <- fpow_add. f_equal. lia.
  Qed.

  Lemma fpow_neq0 (x : F) n : x <> 0 -> fpow x n <> 0.
  Proof.
    intro Hx; induction n as [|n IH]; cbn [fpow]; [apply f1_neq_0|].
    intro H; destruct (fmul_integral _ _ H); contradiction.
  Qed.

  Section ModFacts.
    Variable M : Mod F.
    Lemma madd_0_r (a : M) : madd a m0 = a.
    Proof. rewrite madd_comm; apply madd_0_l. Qed.

    Lemma madd_cancel_l (a b c : M) : madd a b = madd a c -> b = c.
    Proof.
      intro H. rewrite <- (madd_0_l _ _ b), <- (madd_0_l _ _ c).
      rewrite <- (madd_opp _ _ a), (madd_comm _ _ a).
      rewrite <- !madd_assoc, H. reflexivity.
    Qed.

    Lemma smul_0_l (a : M) : smul 0 a = m0.
    Proof.
      apply (madd_cancel_l (smul 0 a)).
      rewrite <- smul_add_l, madd_0_r. f_equal. ring.
    Qed.

    Lemma smul_0_r (s : F) : smul s (m0 : M) = m0.
    Proof.
      apply (madd_cancel_l (smul s m0)).
      rewrite <- smul_add_r, madd_0_l, madd_0_r. reflexivity.
    Qed.

    Lemma smul_opp_l (s : F) (a : M) : smul (- s) a = mopp (smul s a).
    Proof.
      apply (madd_cancel_l (smul s a)).
      rewrite <- smul_add_l, madd_opp, <- (smul_0_l a). f_equal. ring.
    Qed.

    Lemma smul_opp_r (s : F) (a : M) : smul s (mopp a) = mopp (smul s a).
    Proof.
      apply (madd_cancel_l (smul s a)).
      rewrite <- smul_add_r, !madd_opp. apply smul_0_r.
    Qed.

    Lemma mopp_0 : mopp (m0 : M) = m0.
    Proof. rewrite <- (madd_0_l _ _ (mopp m0)). apply madd_opp. Qed.

    Lemma mopp_add (a b : M) : mopp (madd a b) = madd (mopp a) (mopp b).
    Proof.
      apply (madd_cancel_l (madd a b)). rewrite madd_opp.
      rewrite <- madd_assoc, (madd_assoc _ _ b), (madd_comm _ _ b (mopp a)).
      rewrite <- (madd_assoc _ _ (mopp a)), madd_opp, madd_0_r, madd_opp. reflexivity.
    Qed.

    Lemma mopp_mopp (a : M) : mopp (mopp a) = a.
    Proof.
      apply (madd_cancel_l (mopp a)).
      rewrite madd_opp, madd_comm, madd_opp. reflexivity.
    Qed.

    Lemma msub_diag (a : M) : msub a a = m0.
    Proof. apply madd_opp. Qed.

    Lemma msub_eq0 (a b : M) : msub a b = m0 <-> a = b.
    Proof.
      unfold msub; split; intro H; [|rewrite H; apply madd_opp].
      apply (madd_cancel_l (mopp b)).
      rewrite madd_comm, H, madd_comm, madd_opp. reflexivity.
    Qed.

    Lemma smul_integral (s : F) (a : M) : smul s a = m0 -> s <> 0 -> a = m0.
    Proof.
      intros H Hs. rewrite <- (smul_1 _ _ a).
      replace (1 : F) with (finv s * s) by (field; exact Hs).
      rewrite smul_mul, H. apply smul_0_r.
    Qed.
  End ModFacts.
End FieldFacts.

(** ** Concrete prime fields: canonical residues. *)
Section Zp.
  Variable p : Z.
  Hypothesis Hp : prime p.
  Local Open Scope Z_scope.

  Definition zp := { z : Z | (z =? z mod p) = true }.

  Lemma zp_eq (a b : zp) : proj1_sig a = proj1_sig b -> a = b.
  Proof.
    destruct a as [a Ha], b as [b Hb]; cbn; intro E; subst b.
    f_equal. apply UIP_dec. decide equality.
  Qed.

  Lemma p_pos : 0 < p.
  Proof. destruct Hp; lia. Qed.

  Lemma mod_ok_proof z : (z mod p =? (z mod p) mod p) = true.
  Proof. rewrite Zmod_mod. apply Z.eqb_refl. Qed.
  (** same statement, computing to [eq_refl] *)
  Definition mod_ok z : (z mod p =? (z mod p) mod p) = true :=
    match bool_dec (z mod p =? (z mod p) mod p) true with
    | left e => e
    | right n => False_ind _ (n (mod_ok_proof z))
    end.

  Definition to_zp (z : Z) : zp := exist _ (z mod p) (mod_ok z).

  (** extended Euclid with fuel; returns (u, v, d) with u*a + v*b = d *)
  Fixpoint egcd (n : nat) (a b : Z) : Z * Z * Z :=
    match n with
    | O => (1, 0, a)
    | S n => if b =? 0 then (1, 0, a)
             else let '(u, v, d) := egcd n b (a mod b) in (v, u - (a / b) * v, d)
    end.

  Lemma egcd_bezout n : forall a b u v d, egcd n a b = (u, v, d) -> u * a + v * b = d.
  Proof.
    induction n as [|n IH]; cbn [egcd]; intros a b u v d H.
    - inversion H; subst; ring.
    - destruct (b =? 0) eqn:E; [inversion H; subst; ring|].
      destruct (egcd n b (a mod b)) as [[u' v'] d'] eqn:E'.
      apply IH in E'. inversion H; subst; clear H.
      apply Z.eqb_neq in E. rewrite (Z.mod_eq a b) by exact E. ring.
  Qed.

  (* the last remainder of non-negative numbers is non-negative *)
  Lemma egcd_nonneg n : forall a b u v d, 0 <= a -> 0 <= b -> egcd n a b = (u, v, d) -> 0 <= d.
  Proof.
    induction n as [|n IH]; cbn [egcd]; intros a b u v d H1 H2 H.
    - inversion H; subst; lia.
    - destruct (b =? 0) eqn:E; [inversion H; subst; lia|].
      destruct (egcd n b (a mod b)) as [[u' v'] d'] eqn:E'.
      inversion H; subst. apply Z.eqb_neq in E.
      eapply IH; [| |exact E']; [lia|]. apply Z.mod_pos_bound; lia.
  Qed.

  Lemma egcd_divides : forall (k : nat) n a b u v d,
    0 <= b < 2 ^ Z.of_nat k -> (2 * k + 1 <= n)%nat ->
    egcd n a b = (u, v, d) -> (d | a) /\ (d | b).
  Proof.
    induction k as [|k IH]; intros n a b u v d Hb Hn H.
    - destruct n as [|n]; [lia|]. cbn [egcd] in H.
      change (2 ^ Z.of_nat 0) with 1 in Hb. replace b with 0 in * by lia.
      cbn in H. inversion H; subst. split; [apply Z.divide_refl|apply Z.divide_0_r].
    - destruct n as [|[|n]]; try lia. cbn [egcd] in H.
      destruct (b =? 0) eqn:E.
      { apply Z.eqb_eq in E. inversion H; subst. split; [apply Z.divide_refl|apply Z.divide_0_r]. }
      apply Z.eqb_neq in E.
      assert (Hr : 0 <= a mod b < b) by (apply Z.mod_pos_bound; lia).
      assert (Ha : a = b * (a / b) + a mod b) by (apply Z.div_mod; lia).
      destruct (a mod b =? 0) eqn:E2.
      { apply Z.eqb_eq in E2. inversion H; subst.
        split; [|apply Z.divide_refl]. rewrite Ha, E2, Z.add_0_r.
        apply Z.divide_factor_l. }
      apply Z.eqb_neq in E2.
      destruct (egcd n (a mod b) (b mod (a mod b))) as [[u' v'] d'] eqn:E3.
      inversion H; subst; clear H.
      assert (Hr2 : 0 <= b mod (a mod b) < a mod b) by (apply Z.mod_pos_bound; lia).
      assert (Hb2 : b = (a mod b) * (b / (a mod b)) + b mod (a mod b)) by (apply Z.div_mod; lia).
      apply IH in E3; [|split; [lia|]|lia].
      + destruct E3 as [D1 D2].
        assert (D3 : (d | b)).
        { rewrite Hb2. apply Z.divide_add_r; [apply Z.divide_mul_l; exact D1|exact D2]. }
        split; [|exact D3]. rewrite Ha.
        apply Z.divide_add_r; [apply Z.divide_mul_l; exact D3|exact D1].
      + rewrite Nat2Z.inj_succ, Z.pow_succ_r in Hb by lia.
        assert (1 <= b / (a mod b)) by (apply Z.div_le_lower_bound; lia).
        nia.
  Qed.

  Definition zp_add (a b : zp) := to_zp (proj1_sig a + proj1_sig b).
  Definition zp_mul (a b : zp) := to_zp (proj1_sig a * proj1_sig b).
  Definition zp_sub (a b : zp) := to_zp (proj1_sig a - proj1_sig b).
  Definition zp_opp (a : zp) := to_zp (- proj1_sig a).
  Definition zp_inv (a : zp) : zp :=
    to_zp (let '(u, _, _) := egcd (Z.to_nat (2 * (Z.log2 p + 1) + 1)) (proj1_sig a) p in u).
  Definition zp_div (a b : zp) := zp_mul a (zp_inv b).

  Lemma zp_bound (a : zp) : 0 <= proj1_sig a < p.
  Proof.
    destruct a as [a Ha]; cbn. apply Z.eqb_eq in Ha. rewrite Ha.
    apply Z.mod_pos_bound, p_pos.
  Qed.

  Lemma zp_small (a : zp) : proj1_sig a mod p = proj1_sig a.
  Proof. destruct a as [a Ha]; cbn. apply Z.eqb_eq in Ha. congruence. Qed.

  Lemma zp_inv_l (a : zp) : a <> to_zp 0 -> zp_mul (zp_inv a) a = to_zp 1.
  Proof.
    intro Ha. pose proof (zp_bound a) as Hb. pose proof p_pos as Hpp.
    assert (Hn : proj1_sig a <> 0).
    { intro E; apply Ha, zp_eq. unfold to_zp; cbn [proj1_sig]. rewrite E. now rewrite Zmod_0_l. }
    apply zp_eq. unfold zp_mul, zp_inv, to_zp; cbn [proj1_sig].
    destruct (egcd _ (proj1_sig a) p) as [[u v] d] eqn:E.
    pose proof (egcd_bezout _ _ _ _ _ _ E) as B.
    assert (Hd0 : 0 <= d) by (apply egcd_nonneg in E; lia).
    apply (egcd_divides (Z.to_nat (Z.log2 p + 1))) in E.
    - destruct E as [D1 D2].
      assert (Hd : d = 1 \/ d = -1).
      { destruct (prime_divisors p Hp d D2) as [H|[H|[H|H]]]; subst; try lia.
        apply Z.divide_pos_le in D1; lia. }
      rewrite Zmult_mod_idemp_l.
      destruct Hd; subst d.
      + replace (u * proj1_sig a) with (1 + (- v) * p) by lia. apply Z_mod_plus_full.
      + lia.
    - split; [lia|].
      rewrite Z2Nat.id by (pose proof (Z.log2_nonneg p); lia).
      rewrite Z.add_1_r. apply Z.log2_spec. exact Hpp.
    - pose proof (Z.log2_nonneg p). lia.
  Qed.

  Ltac zp_ring := apply zp_eq; unfold zp_add, zp_mul, zp_sub, zp_opp, zp_div, to_zp; cbn [proj1_sig];
    repeat first [rewrite Zplus_mod_idemp_l | rewrite Zplus_mod_idemp_r
                 | rewrite Zmult_mod_idemp_l | rewrite Zmult_mod_idemp_r
                 | rewrite Zminus_mod_idemp_l | rewrite Zminus_mod_idemp_r].

  Lemma zp_field : field_theory (to_zp 0) (to_zp 1) zp_add zp_mul zp_sub zp_opp zp_div zp_inv eq.
  Proof.
    pose proof p_pos as Hpp.
    constructor.
    - constructor; intros.
      + zp_ring. rewrite Z.add_0_l. apply zp_small.
      + zp_ring. now rewrite Z.add_comm.
      + zp_ring. now rewrite Z.add_assoc.
      + zp_ring. rewrite Z.mul_1_l. apply zp_small.
      + zp_ring. now rewrite Z.mul_comm.
      + zp_ring. now rewrite Z.mul_assoc.
      + zp_ring. now rewrite Z.mul_add_distr_r.
      + zp_ring. reflexivity.
      + zp_ring. now rewrite Z.add_opp_diag_r.
    - intro H. apply (f_equal (@proj1_sig _ _)) in H. unfold to_zp in H; cbn [proj1_sig] in H.
      rewrite Zmod_0_l, Z.mod_small in H; [discriminate|].
      destruct Hp; lia.
    - reflexivity.
    - intros a Ha. now apply zp_inv_l.
  Qed.

  Lemma zp_eq_dec (a b : zp) : {a = b} + {a <> b}.
  Proof.
    destruct (Z.eq_dec (proj1_sig a) (proj1_sig b)) as [E|E].
    - left; now apply zp_eq.
    - right; intro H; apply E; now rewrite H.
  Defined.

  (** The prime field Z/pZ. *)
  Definition Fp : Fld := mkFld zp (to_zp 0) (to_zp 1) zp_add zp_mul zp_sub zp_opp zp_div zp_inv
                               zp_field zp_eq_dec.
End Zp.

(** A field is a module over itself. *)
Section Self.
  Variable F : Fld.
  Add Field FSelf : (f_th F).
  Definition self_mod : Mod F.
  Proof.
    refine (mkMod F F f0 fadd fopp fmul _ _ _ _ _ _ _ _); intros; ring.
  Defined.
End Self.

Lemma prime_7 : prime 7.
Proof.
  constructor; [lia|]. intros n Hn.
  assert (n = 1 \/ n = 2 \/ n = 3 \/ n = 4 \/ n = 5 \/ n = 6)%Z as C by lia.
  repeat destruct C as [C|C]; subst;
    apply Zgcd_1_rel_prime; reflexivity.
Qed.

Lemma prime_101 : prime 101.
Proof.
  constructor; [lia|]. intros n Hn.
  apply Zgcd_1_rel_prime.
  assert (H : forallb (fun k => Z.eqb (Z.gcd (Z.of_nat k) 101) 1) (seq 1 100) = true) by (vm_compute; reflexivity).
  rewrite forallb_forall in H.
  specialize (H (Z.to_nat n)).
  rewrite Z2Nat.id in H by lia. apply Z.eqb_eq, H.
  apply in_seq. lia.
Qed.

Definition F7 : Fld := Fp 7 prime_7.
Definition F101 : Fld := Fp 101 prime_101.
