(** Property C56: the library for sums of multiples (lagrange.sol).

    [multiexp] returns the sum of the multiples of the bases, or reverts: when there are fewer
    bases than scalars, when a base that is multiplied by something other than 0 is not a point,
    and when the recursion is too deep for the stack. *)
From Coq Require Import ZArith NArith List Bool Lia.
From Verif Require Import Util Algebra PField Curve CurveAssoc Bn254 Bn254Prime Bn254Curve Evm EvmProofs Mulexp Properties_Contract.
Import ListNotations.
Local Open Scope Z_scope.

Local Notation b3 := (@ofZ Fq 3).
Local Notation onc := (on_curve b3).
Local Notation two := (two_neq0 Fq eq_refl).
Local Notation noy := (no_ordinate_0 Fq eq_refl).

(** ** Specification

    Nested calls for a scalar: one for each bit, and one more for each bit that is 1 but the
    first. *)
Fixpoint calls_of (p : positive) : nat := match p with xH => 1 | xO p => S (calls_of p) | xI p => S (S (calls_of p)) end.
Definition nested (s : Z) : nat := match s with Zpos p => calls_of p | _ => 1 end.
(** The sum of the multiples, for points. *)
Fixpoint sum_of (scalars : list Z) (points : list (point Fq)) : point Fq :=
  match scalars, points with s :: ss, P :: ps => padd (smul (Z.to_N s) P) (sum_of ss ps) | _, _ => Inf end.
(** A pair of words that the precompiles take for a point *)
Definition a_point (p : Z * Z) : Prop := exists P, decode b3 (fst p) (snd p) = Some P.

Lemma sum_on scalars : forall points, Forall onc points -> onc (sum_of scalars points).
Proof. induction scalars as [|s ss IH]; intros points H; destruct H as [|P ps HP H]; try exact I. cbn [sum_of]. apply padd_on; [apply smul_on; exact HP|apply IH; exact H]. Qed.

Theorem C56_depth s : 1 <= s -> Z.log2 s + 1 <= Z.of_nat (nested s) <= 2 * Z.log2 s + 1.
Proof.
  destruct s as [|p|p]; try lia. intros _. cbn [nested]. induction p as [p IH|p IH|].
  - rewrite Pos2Z.inj_xI, Z.log2_succ_double by lia. cbn [calls_of]. lia.
  - rewrite Pos2Z.inj_xO, Z.log2_double by lia. cbn [calls_of]. lia.
  - cbn. lia.
Qed.
Print Assumptions C56_depth.

Lemma nested_odd s : 1 < s -> s mod 2 = 1 -> nested s = S (nested (s - 1)).
Proof. destruct s as [|p|p]; try lia. intros H E. destruct p as [p|p|]; [|rewrite Pos2Z.inj_xO, Z.mul_comm, Z_mod_mult in E; discriminate|lia]. reflexivity. Qed.
Lemma nested_even s : 1 < s -> s mod 2 <> 1 -> nested s = S (nested (s / 2)).
Proof.
  destruct s as [|p|p]; try lia. intros H E. destruct p as [p|p|]; [exfalso; apply E; rewrite Pos2Z.inj_xI, Z.add_comm, Z.mul_comm; apply Z_mod_plus_full| |lia].
  replace (Zpos p~0 / 2) with (Zpos p) by (rewrite Pos2Z.inj_xO, Z.mul_comm, Z_div_mult by lia; reflexivity). reflexivity.
Qed.
Lemma nested_pos s : (1 <= nested s)%nat.
Proof. destruct s as [|p|p]; cbn; try lia. destruct p; cbn; lia. Qed.

(** ** One multiple: exactly when the stack has room *)
Theorem C56_exp frames s P : 0 <= s -> onc P ->
  exp b3 frames s (encode P) = if (nested s <=? frames)%nat then Some (encode (smul (Z.to_N s) P)) else None.
Proof.
  revert s P. induction frames as [|f IH]; intros s P Hs HP; [destruct (Nat.leb_spec (nested s) 0); [pose proof (nested_pos s); lia|reflexivity]|].
  cbn [exp]. destruct (Z.eqb_spec s 0) as [->|N0]; [reflexivity|]. destruct (Z.eqb_spec s 1) as [->|N1].
  { cbn [nested calls_of Nat.leb]. change (Z.to_N 1) with 1%N. now rewrite smul_1. }
  destruct (Z.eqb_spec (s mod 2) 1) as [O|O].
  - rewrite (nested_odd s) by lia. cbn [Nat.leb]. rewrite IH by (assumption || lia). destruct (nested (s - 1) <=? f)%nat; [|reflexivity].
    unfold add. rewrite (ecAdd_ok Fq b3 b3_nz) by (try apply smul_on; exact HP). replace (Z.to_N s) with (N.succ (Z.to_N (s - 1))) by lia. now rewrite smul_succ.
  - rewrite (nested_even s) by lia. cbn [Nat.leb]. unfold add. rewrite (ecAdd_ok Fq b3 b3_nz) by exact HP.
    rewrite IH; [|apply Z.div_pos; lia|apply padd_on; exact HP]. destruct (nested (s / 2) <=? f)%nat; [|reflexivity]. do 2 f_equal.
    replace (padd P P) with (smul 2 P) by (cbn; now rewrite padd_inf_r). rewrite <- (smul_mul Fq b3 two noy) by exact HP. f_equal.
    pose proof (Z.mod_pos_bound s 2 ltac:(lia)). pose proof (Z.div_mod s 2 ltac:(lia)). lia.
Qed.
Print Assumptions C56_exp.

(** As the precompile for multiples, which the generated contract uses. *)
Theorem C56_exp_is_ecMul frames s x y : 0 <= s -> 0 <= x -> 0 <= y -> a_point (x, y) -> (nested s <= frames)%nat -> exp b3 frames s (x, y) = ecMul b3 x y s.
Proof.
  intros Hs Hx Hy [P E] Hf. cbn [fst snd] in E. rewrite <- (encode_decode Fq b3 x y P Hx Hy E). rewrite (C56_exp frames s P Hs (decode_on Fq b3 x y P E)).
  apply Nat.leb_le in Hf. rewrite Hf. unfold ecMul. rewrite E. reflexivity.
Qed.
Print Assumptions C56_exp_is_ecMul.

(** ** The sum *)
Lemma loop_sum frames scalars : forall points acc, Forall (fun s => 0 <= s /\ (nested s <= frames)%nat) scalars -> Forall onc points -> onc acc -> (length scalars <= length points)%nat ->
  multiexp_loop b3 frames scalars (map encode points) (encode acc) = Some (encode (padd acc (sum_of scalars points))).
Proof.
  induction scalars as [|s ss IH]; intros points acc HS HP HA L; [cbn; now rewrite padd_inf_r|]. destruct points as [|P ps]; [cbn in L; lia|].
  apply Forall_inv in HS as Hs. apply Forall_inv_tail in HS. apply Forall_inv in HP as Hp. apply Forall_inv_tail in HP. destruct Hs as [Hs Hf]. apply Nat.leb_le in Hf.
  cbn [map multiexp_loop]. rewrite (C56_exp frames s P Hs Hp), Hf. unfold add. rewrite (ecAdd_ok Fq b3 b3_nz) by (try apply smul_on; assumption).
  rewrite IH; [|assumption|assumption|apply padd_on; [assumption|apply smul_on; assumption]|exact (le_S_n _ _ L)]. cbn [sum_of].
  rewrite (padd_assoc Fq b3 two noy); [reflexivity|assumption|apply smul_on; assumption|apply sum_on; assumption].
Qed.
Theorem C56_multiexp frames scalars points : Forall (fun s => 0 <= s /\ (nested s <= frames)%nat) scalars -> Forall onc points -> (length scalars <= length points)%nat ->
  multiexp b3 frames scalars (map encode points) = Some (encode (sum_of scalars points)).
Proof.
  intros HS HP L. unfold multiexp. rewrite map_length. apply Nat.leb_le in L as L'. rewrite L'. exact (loop_sum frames scalars points Inf HS HP I L).
Qed.
Print Assumptions C56_multiexp.
(** With room for 511 calls every word will do. *)
Theorem C56_any_words frames scalars points : (511 <= frames)%nat -> Forall word scalars -> Forall onc points -> (length scalars <= length points)%nat ->
  multiexp b3 frames scalars (map encode points) = Some (encode (sum_of scalars points)).
Proof.
  intros Hf HS HP L. apply C56_multiexp; [|assumption|assumption]. eapply Forall_impl; [|exact HS]. intros s [H0 H1]. split; [exact H0|].
  destruct (Z.eq_dec s 0) as [->|N0]; [cbn; lia|]. pose proof (C56_depth s ltac:(lia)). assert (Z.log2 s < 256) by (apply Z.log2_lt_pow2; lia). lia.
Qed.
Print Assumptions C56_any_words.

(** ** When it reverts *)
Lemma exp_invalid frames s p : 1 < s -> ~ a_point p -> exp b3 frames s p = None.
Proof.
  intros Hs H. destruct frames as [|f]; [reflexivity|]. cbn [exp]. destruct (Z.eqb_spec s 0); [lia|]. destruct (Z.eqb_spec s 1); [lia|].
  assert (K : forall t, add b3 p t = None).
  { intro t. unfold add, ecAdd. destruct (decode b3 (fst p) (snd p)) as [P|] eqn:E; [exfalso; apply H; exists P; exact E|reflexivity]. }
  destruct (_ =? 1); [destruct (exp b3 f (s - 1) p); [apply K|reflexivity]|rewrite K; reflexivity].
Qed.
Lemma step frames s p acc : 0 <= s -> 0 <= fst p -> 0 <= snd p -> onc acc ->
  (exists P, onc P /\ (nested s <= frames)%nat /\ (s = 0 \/ a_point p) /\ (do t <- exp b3 frames s p; add b3 (encode acc) t) = Some (encode (padd acc P))) \/
  (((frames < nested s)%nat \/ (s <> 0 /\ ~ a_point p)) /\ (do t <- exp b3 frames s p; add b3 (encode acc) t) = None).
Proof.
  intros Hs Hx Hy HA. destruct p as [x y]. cbn [fst snd] in *.
  destruct (decode b3 x y) as [P|] eqn:E.
  - rewrite <- (encode_decode Fq b3 x y P Hx Hy E). pose proof (decode_on Fq b3 x y P E) as HP. rewrite (C56_exp frames s P Hs HP). destruct (Nat.leb_spec (nested s) frames) as [L|L].
    + left. exists (smul (Z.to_N s) P). split; [apply smul_on; exact HP|]. split; [exact L|]. split; [right; exists P; apply (decode_encode Fq b3 b3_nz); exact HP|].
      unfold add. apply (ecAdd_ok Fq b3 b3_nz); [exact HA|apply smul_on; exact HP].
    + right. split; [left; exact L|reflexivity].
  - assert (H : ~ a_point (x, y)) by (intros [P HP]; change (decode b3 x y = Some P) in HP; rewrite E in HP; discriminate). destruct (Z.eq_dec s 0) as [->|N0].
    + destruct frames as [|f]; [right; split; [left; cbn; lia|reflexivity]|]. left. exists Inf. split; [exact I|]. split; [cbn; lia|]. split; [left; reflexivity|].
      exact (ecAdd_ok Fq b3 b3_nz acc Inf HA I).
    + right. split; [right; split; assumption|]. destruct (Z.eq_dec s 1) as [->|N1]; [|rewrite exp_invalid by (assumption || lia); reflexivity].
      destruct frames as [|f]; [reflexivity|]. change (add b3 (encode acc) (x, y) = None). unfold add, ecAdd. cbn [fst snd]. rewrite (decode_encode Fq b3 b3_nz) by exact HA. rewrite E. reflexivity.
Qed.
Lemma loop_reverts frames scalars : forall bases acc, Forall (fun s => 0 <= s) scalars -> Forall (fun p => 0 <= fst p /\ 0 <= snd p) bases -> onc acc -> (length scalars <= length bases)%nat ->
  (multiexp_loop b3 frames scalars bases (encode acc) = None <->
   exists i s p, nth_error scalars i = Some s /\ nth_error bases i = Some p /\ ((frames < nested s)%nat \/ (s <> 0 /\ ~ a_point p))).
Proof.
  induction scalars as [|s ss IH]; intros bases acc HS HB HA L; [split; [discriminate|intros ([|i] & s & p & E & _); discriminate]|]. destruct bases as [|p ps]; [cbn in L; lia|].
  apply Forall_inv in HS as Hs. apply Forall_inv_tail in HS. apply Forall_inv in HB as Hp. apply Forall_inv_tail in HB. cbn [multiexp_loop].
  destruct (step frames s p acc Hs (proj1 Hp) (proj2 Hp) HA) as [(P & HP & F & G & E)|(F & E)].
  - destruct (exp b3 frames s p) as [t|]; [|discriminate]. rewrite E. rewrite IH; [|assumption|assumption|apply padd_on; assumption|exact (le_S_n _ _ L)]. split.
    + intros (i & s' & p' & A & B & C). exists (S i), s', p'. split; [exact A|]. split; [exact B|exact C].
    + intros ([|i] & s' & p' & A & B & C); [|exists i, s', p'; split; [exact A|]; split; [exact B|exact C]]. exfalso. cbn in A, B. injection A as <-. injection B as <-.
      destruct C as [C|[C1 C2]]; [lia|destruct G; contradiction].
  - destruct (exp b3 frames s p) as [t|]; [rewrite E|]; (split; [intros _|reflexivity]); exists 0%nat, s, p; repeat split; exact F.
Qed.
Theorem C56_reverts frames scalars bases : Forall word scalars -> Forall (fun p => word (fst p) /\ word (snd p)) bases ->
  (multiexp b3 frames scalars bases = None <->
   (length bases < length scalars)%nat \/
   exists i s p, nth_error scalars i = Some s /\ nth_error bases i = Some p /\ ((frames < nested s)%nat \/ (s <> 0 /\ ~ a_point p))).
Proof.
  intros HS HB. unfold multiexp. destruct (Nat.leb_spec (length scalars) (length bases)) as [L|L]; [|split; [left; exact L|reflexivity]].
  change infinite with (encode (@Inf Fq)). rewrite loop_reverts; [|eapply Forall_impl; [|exact HS]; intros ? []; assumption|eapply Forall_impl; [|exact HB]; intros ? [[] []]; split; assumption|exact I|exact L].
  split; [intro H; right; exact H|]. intros [H|H]; [lia|exact H].
Qed.
Print Assumptions C56_reverts.
Lemma not_on_curve : ~ a_point (1, 1).
Proof.
  intros [P H]. pose proof (encode_decode Fq b3 1 1 P ltac:(lia) ltac:(lia) H) as E. pose proof (decode_on Fq b3 1 1 P H) as C. destruct P as [|x y]; [discriminate|].
  cbn [encode] in E. apply pair_equal_spec in E. destruct E as [Ex Ey]. assert (Hx : x = ofZ 1) by (apply (toZ_inj Fq); rewrite Ex; vm_compute; reflexivity).
  assert (Hy : y = ofZ 1) by (apply (toZ_inj Fq); rewrite Ey; vm_compute; reflexivity). rewrite Hx, Hy in C. cbn [on_curve] in C. apply (f_equal toZ) in C. vm_compute in C. discriminate.
Qed.
(** A base that is not a point goes unnoticed if its scalar is 0. *)
Theorem C56_bases_checked_refuted : exists frames scalars bases r, Forall word scalars /\ Forall (fun p => word (fst p) /\ word (snd p)) bases /\
  ~ Forall a_point bases /\ length scalars = length bases /\ multiexp b3 frames scalars bases = Some r.
Proof.
  exists 9%nat, [0], [(1, 1)], (0, 0). split; [constructor; [split; reflexivity || discriminate|constructor]|]. split; [constructor; [split; split; reflexivity || discriminate|constructor]|].
  split; [intro H; exact (not_on_curve (Forall_inv H))|]. split; [reflexivity|]. exact (ecAdd_ok Fq b3 b3_nz Inf Inf I I).
Qed.
Print Assumptions C56_bases_checked_refuted.

(** With room for 204 calls (1024 words, five for each call) no scalar of more than 204 bits can
    be used: most scalars of the curve. *)
Theorem C56_large_scalars_refuted : exists frames, 1024 <= 5 * (Z.of_nat frames + 1) /\
  forall s P, 2 ^ 204 <= s -> word s -> onc P -> exp b3 frames s (encode P) = None.
Proof.
  exists 204%nat. split; [cbn; lia|]. intros s P Hs [H0 _] HP. rewrite (C56_exp 204 s P H0 HP). destruct (Nat.leb_spec (nested s) 204) as [L|L]; [|reflexivity]. exfalso.
  assert (1 <= s) by (assert (0 < 2 ^ 204) by reflexivity; lia). pose proof (C56_depth s ltac:(assumption)). assert (204 <= Z.log2 s) by (apply Z.log2_le_pow2; lia). lia.
Qed.
Print Assumptions C56_large_scalars_refuted.

(** ** Cases *)
Lemma example_sum (P : point Fq) : onc P -> sum_of [6; 0; 1] [P; Inf; padd P P; P] = smul 8 P.
Proof.
  intro H. cbn [sum_of]. change (Z.to_N 6) with 6%N. change (Z.to_N 0) with 0%N. change (Z.to_N 1) with 1%N. rewrite smul_0, smul_1, padd_inf_r. cbn [padd].
  replace (padd P P) with (smul 2 P) by (cbn; now rewrite padd_inf_r). rewrite <- (smul_add Fq b3 two noy) by exact H. reflexivity.
Qed.
Local Notation g1 := (@Aff Fq (ofZ 1) (ofZ 2)).
(** Of four bases the first three are used; one of them is the identity. *)
Example C56_example : onc g1 /\ multiexp b3 4 [6; 0; 1] (map (encode (W := Fq)) [g1; Inf; padd g1 g1; g1]) = Some (encode (smul 8 g1)).
Proof.
  assert (HG : onc g1) by (apply (toZ_inj Fq); vm_compute; reflexivity). split; [exact HG|]. revert HG. generalize g1. intros P HP. rewrite <- (example_sum P HP). apply C56_multiexp.
  - repeat (apply Forall_cons; [split; [lia|cbn; lia]|]). apply Forall_nil.
  - repeat (apply Forall_cons; [first [exact HP|exact I|apply padd_on; exact HP]|]). apply Forall_nil.
  - cbn. lia.
Qed.
Print Assumptions C56_example.
(** Six takes four calls: 6, 3, 2, 1. *)
Example C56_example_frames P : onc P -> nested 6 = 4%nat /\ exp b3 4 6 (encode P) = Some (encode (smul 6 P)) /\ exp b3 3 6 (encode P) = None.
Proof. intro H. split; [reflexivity|]. rewrite !C56_exp by (assumption || lia). split; reflexivity. Qed.
