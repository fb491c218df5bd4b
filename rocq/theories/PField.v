(** Prime fields with their canonical integer representatives
    (halo2curves [FieldExt]: [to_repr] / [from_bytes_wide], seen through
    utils.rs:5-18, [field_to_bn] and [bn_to_field]). *)
From Coq Require Import ZArith Lia Znumtheory Ring Field Bool.
From Verif Require Import Algebra.
Local Open Scope Z_scope.

Record PF := mkPF {
  pf :> Fld;
  pf_n : Z;
  pf_prime : prime pf_n;
  toZ : pf -> Z;                 (** utils.rs:5-7, [field_to_bn] *)
  ofZ : Z -> pf;                 (** utils.rs:11-18, [bn_to_field]; also [N::from] *)
  toZ_range : forall a, 0 <= toZ a < pf_n;
  ofZ_toZ : forall a, ofZ (toZ a) = a;
  toZ_ofZ : forall z, toZ (ofZ z) = z mod pf_n;
  ofZ_0 : ofZ 0 = f0;
  ofZ_1 : ofZ 1 = f1;
  ofZ_add : forall a b, ofZ (a + b) = fadd (ofZ a) (ofZ b);
  ofZ_mul : forall a b, ofZ (a * b) = fmul (ofZ a) (ofZ b)
}.
Arguments toZ {_} _. Arguments ofZ {_} _%Z_scope.

Section PFFacts.
  Variable N : PF.
  Local Notation n := (pf_n N).
  Add Field NF : (f_th N).

  Lemma pf_pos : 1 < n.
  Proof. destruct (pf_prime N); lia. Qed.

  Lemma ofZ_opp a : @ofZ N (- a) = fopp (ofZ a).
  Proof.
    assert (H : fadd (ofZ (- a)) (ofZ a) = @f0 N) by (rewrite <- ofZ_add, Z.add_opp_diag_l; apply ofZ_0).
    transitivity (fadd (fadd (ofZ (- a)) (ofZ a)) (fopp (ofZ a : N))); [ring|rewrite H; ring].
  Qed.
  Lemma ofZ_sub a b : @ofZ N (a - b) = fsub (ofZ a) (ofZ b).
  Proof. unfold Z.sub. rewrite ofZ_add, ofZ_opp. ring. Qed.

  Lemma toZ_inj (a b : N) : toZ a = toZ b -> a = b.
  Proof. intro H. rewrite <- (ofZ_toZ N a), <- (ofZ_toZ N b). now rewrite H. Qed.

  (** equality in the field is congruence of representatives *)
  Lemma ofZ_eq a b : @ofZ N a = ofZ b <-> a mod n = b mod n.
  Proof.
    split; intro H.
    - rewrite <- !toZ_ofZ. now rewrite H.
    - apply toZ_inj. now rewrite !toZ_ofZ.
  Qed.

  Lemma toZ_small z : 0 <= z < n -> toZ (@ofZ N z) = z.
  Proof. intro H. rewrite toZ_ofZ. now apply Z.mod_small. Qed.

  Lemma toZ_0 : toZ (@f0 N) = 0.
  Proof. rewrite <- ofZ_0, toZ_ofZ. now rewrite Zmod_0_l. Qed.
  Lemma toZ_1 : toZ (@f1 N) = 1.
  Proof. rewrite <- ofZ_1. apply toZ_small. pose proof pf_pos. lia. Qed.
  Lemma toZ_eq0 (a : N) : toZ a = 0 <-> a = f0.
  Proof. rewrite <- toZ_0. split; [apply toZ_inj|now intros ->]. Qed.

  Lemma toZ_add (a b : N) : toZ (fadd a b) = (toZ a + toZ b) mod n.
  Proof. now rewrite <- toZ_ofZ, ofZ_add, !ofZ_toZ. Qed.
  Lemma toZ_mul (a b : N) : toZ (fmul a b) = (toZ a * toZ b) mod n.
  Proof. now rewrite <- toZ_ofZ, ofZ_mul, !ofZ_toZ. Qed.

  (** an equation between field elements, moved to the integers *)
  Lemma ofZ_cong a b : @ofZ N a = ofZ b -> (n | a - b).
  Proof.
    intro H. apply ofZ_eq in H. apply Z.mod_divide; [pose proof pf_pos; lia|].
    rewrite Zminus_mod, H, Z.sub_diag. apply Zmod_0_l.
  Qed.
  Lemma ofZ_inj_small a b : 0 <= a < n -> 0 <= b < n -> @ofZ N a = ofZ b -> a = b.
  Proof. intros Ha Hb H. apply ofZ_eq in H. now rewrite !Z.mod_small in H. Qed.
End PFFacts.

(** The concrete prime field. *)
Definition FpPF (p : Z) (Hp : prime p) : PF.
Proof.
  refine (mkPF (Fp p Hp) p Hp (@proj1_sig _ _) (to_zp p) _ _ _ _ _ _ _).
  - intro a. now apply zp_bound.
  - intro a. apply zp_eq. unfold to_zp. cbn [proj1_sig]. now apply zp_small.
  - reflexivity.
  - reflexivity.
  - reflexivity.
  - intros a b. apply zp_eq. cbn. now rewrite <- Zplus_mod.
  - intros a b. apply zp_eq. cbn. now rewrite <- Zmult_mod.
Defined.
