(** Properties C38, C43: the arithmetic of the generated contract. *)
From Coq Require Import ZArith NArith List Bool Lia.
From Verif Require Import Util Algebra PField Curve Bytes Bn254 Bn254Prime Bn254Curve Evm EvmProofs.
Import ListNotations.
Local Open Scope Z_scope.

(** * C38: arithmetic of scalars, for all 256-bit words *)
(** [represents z x]: the word [z] is the canonical representative of the scalar [x]. *)
Definition represents (z : Z) (x : Fr) : Prop := 0 <= z < q_mod /\ @ofZ Fr z = x.

Lemma Fr_q : pf_n Fr = q_mod. Proof. reflexivity. Qed.
Lemma Fq_p : pf_n Fq = p_mod. Proof. reflexivity. Qed.

Theorem C38_add l r : word l -> word r -> represents (fr_add l r) (fadd (@ofZ Fr l) (@ofZ Fr r)).
Proof. intros _ _. split; [apply Z.mod_pos_bound; reflexivity|exact (fr_add_ok Fr Fr_q l r)]. Qed.
Theorem C38_mul l r : word l -> word r -> represents (fr_mul l r) (fmul (@ofZ Fr l) (@ofZ Fr r)).
Proof. intros _ _. split; [apply Z.mod_pos_bound; reflexivity|exact (fr_mul_ok Fr Fr_q l r)]. Qed.
Theorem C38_mul_add l r c : word l -> word r -> word c ->
  represents (fr_mul_add l r c) (fadd (fmul (@ofZ Fr l) (@ofZ Fr r)) (@ofZ Fr c)).
Proof. intros _ _ _. split; [apply Z.mod_pos_bound; reflexivity|exact (fr_mul_add_ok Fr Fr_q l r c)]. Qed.
(** The exponent is any word. *)
Theorem C38_pow a e : word a -> word e -> represents (fr_pow a e) (fpow (@ofZ Fr a) (Z.to_nat e)).
Proof. intros _ [He _]. split; [apply Z.mod_pos_bound; reflexivity|exact (fr_pow_ok Fr Fr_q a e He)]. Qed.
(** The subtrahend must be at most the modulus; every canonical word is.  Missing:
    larger words (refuted below). *)
Theorem C38_sub_partial checked l r : word l -> 0 <= r <= q_mod ->
  exists z, fr_sub checked l r = Some z /\ represents z (fsub (@ofZ Fr l) (@ofZ Fr r)).
Proof.
  intros _ [_ Hr]. destruct (fr_sub_ok Fr Fr_q checked l r Hr) as (z & E & R & V).
  exists z. split; [exact E|]. split; [exact R|exact V].
Qed.
(** The divisor must not be a multiple of the modulus.  Missing: such words, for which
    the routine returns a value although there is no quotient (refuted below). *)
Theorem C38_div_partial a b : word a -> word b -> b mod q_mod <> 0 ->
  exists z, fr_div a b = Some z /\ represents z (fdiv (@ofZ Fr a) (@ofZ Fr b)).
Proof.
  intros _ _ Hb. destruct (fr_div_ok Fr Fr_q a b) as (z & E & R & V).
  - intro C. apply Hb. apply (f_equal toZ) in C. rewrite toZ_ofZ in C. exact (eq_trans C (toZ_0 Fr)).
  - exists z. split; [exact E|]. split; [exact R|exact V].
Qed.
(** Reversal of the 32 bytes of a word ([le 32]: its bytes, least significant first). *)
Theorem C38_reverse v : word v -> word (fr_reverse v) /\ le 32 (fr_reverse v) = rev (le 32 v).
Proof. intro H. split; [exact (fr_reverse_word v H)|exact (fr_reverse_bytes v H)]. Qed.

(** The two conditions above are needed: the routines accept words for which they
    do not compute the difference or the quotient.  The division by a non-zero multiple
    of the modulus does not revert although the quotient does not exist. *)
Theorem C38_div_refuted : exists a b z, word a /\ word b /\ @ofZ Fr b = f0 /\ fr_div a b = Some z.
Proof.
  exists 1, q_mod. destruct (fr_div_zero 1 1) as (z & E & _). exists z.
  split; [split; [discriminate|reflexivity]|]. split; [split; [discriminate|reflexivity]|].
  split; [|exact E]. rewrite <- (ofZ_0 Fr). apply ofZ_eq. reflexivity.
Qed.
(** Without checked arithmetic a larger subtrahend gives a wrong value. *)
Theorem C38_sub_refuted : exists l r z, word l /\ word r /\ fr_sub false l r = Some z /\
  @ofZ Fr z <> fsub (@ofZ Fr l) (@ofZ Fr r).
Proof.
  exists 0, (q_mod + 1). eexists. split; [split; [discriminate|reflexivity]|]. split; [split; [discriminate|reflexivity]|].
  split; [reflexivity|]. rewrite <- ofZ_sub. intro C. apply (f_equal toZ) in C. rewrite !toZ_ofZ in C. 
  assert (E : forall x y, (x mod pf_n Fr =? y mod pf_n Fr) = false -> x mod pf_n Fr = y mod pf_n Fr -> False)
    by (intros x y H1 H2; rewrite H2, Z.eqb_refl in H1; discriminate).
  refine (E _ _ _ C). vm_compute. reflexivity.
Qed.

Example C38_example_add : fr_add (q_mod - 1) 5 = 4. Proof. reflexivity. Qed.
Example C38_example_mul : fr_mul (2 ^ 256 - 1) (2 ^ 256 - 1) = (2 ^ 256 - 1) * (2 ^ 256 - 1) mod q_mod. Proof. reflexivity. Qed.
Example C38_example_pow : fr_pow 3 5 = 243 /\ fr_pow 0 0 = 1. Proof. split; reflexivity. Qed.
Example C38_example_sub : fr_sub true 3 5 = Some (q_mod - 2) /\ word 3 /\ 0 <= 5 <= q_mod.
Proof. repeat split; reflexivity || discriminate. Qed.
Example C38_example_div : exists z, fr_div 6 3 = Some z /\ represents z (@ofZ Fr 2).
Proof.
  destruct (C38_div_partial 6 3) as (z & E & R & V); [split; [discriminate|reflexivity]|split; [discriminate|reflexivity]|discriminate|].
  exists z. split; [exact E|]. split; [exact R|]. rewrite V.
  assert (N3 : @ofZ Fr 3 <> f0). { intro C. apply (f_equal toZ) in C. rewrite toZ_ofZ in C. rewrite (toZ_0 Fr) in C. discriminate. }
  symmetry. apply (div_eq Fr); [exact N3|]. exact (eq_sym (ofZ_mul Fr 2 3)).
Qed.
Example C38_example_reverse : fr_reverse 0x0102 = 0x0201 * 2 ^ 240. Proof. reflexivity. Qed.

(** * C43: subtraction of points

    [encode]: the two words for a point, (0, 0) for the identity; [padd], [pneg]: the
    group law (Curve.v). *)
Local Notation b3 := (@ofZ Fq 3).
Lemma b3_nz : b3 <> f0.
Proof. intro C. apply (f_equal toZ) in C. rewrite toZ_ofZ, (toZ_0 Fq) in C. discriminate. Qed.

(** Subtracting a point other than the identity.  Missing: the identity (refuted below). *)
Theorem C43_sub_partial checked P Q : on_curve b3 P -> on_curve b3 Q -> Q <> Inf ->
  ecc_sub b3 checked (fst (encode P)) (snd (encode P)) (fst (encode Q)) (snd (encode Q)) = Some (encode (padd P (pneg Q))).
Proof.
  intros HP HQ NQ. destruct Q as [|x y]; [congruence|].
  exact (ecc_sub_ok Fq Fq_p b3 b3_nz checked P x y HP HQ (no_ordinate_0 Fq Fq_p x y HQ)).
Qed.
(** Subtracting the identity reverts, whatever is on the left. *)
Theorem C43_refuted : exists P Q : point Fq, on_curve b3 P /\ on_curve b3 Q /\ forall checked,
  ecc_sub b3 checked (fst (encode P)) (snd (encode P)) (fst (encode Q)) (snd (encode Q)) = None.
Proof. exists Inf, Inf. split; [exact I|]. split; [exact I|]. intro c. exact (ecc_sub_identity Fq Fq_p b3 c 0 0). Qed.
Theorem C43_identity_always_reverts checked ax ay : ecc_sub b3 checked ax ay 0 0 = None.
Proof. exact (ecc_sub_identity Fq Fq_p b3 checked ax ay). Qed.

(** The generator minus itself and minus its inverse. *)
Example C43_example : ecc_sub b3 true 1 2 1 2 = Some (0, 0).
Proof. vm_compute. reflexivity. Qed.
Example C43_example_hyp : on_curve b3 (Aff (ofZ 1) (ofZ 2)) /\ @Aff Fq (ofZ 1) (ofZ 2) <> Inf.
Proof. split; [|discriminate]. cbn [on_curve]. apply toZ_inj. vm_compute. reflexivity. Qed.

Print Assumptions C38_add. Print Assumptions C38_mul. Print Assumptions C38_mul_add. Print Assumptions C38_pow.
Print Assumptions C38_sub_partial. Print Assumptions C38_div_partial. Print Assumptions C38_reverse. Print Assumptions C38_div_refuted.
Print Assumptions C38_sub_refuted. Print Assumptions C43_sub_partial. Print Assumptions C43_refuted. Print Assumptions C43_identity_always_reverts.
