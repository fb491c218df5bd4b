(** Properties C05-C12: the emulated field of halo2-ecc-circuit-lib
    (five/integer_chip.rs) for BN254: native field [Fr], emulated field [Fq].

    [sat w c]: the assignment [w] satisfies every constraint emitted in [c]
    (Gate.v).  An integer handed out by the chip is four limb cells, a recorded
    overflow count and possibly a cached native cell. *)
From Coq Require Import ZArith Arith Bool Lia List.
From Verif Require Import Util Algebra PField Gate GateProofs GateExtra Integer Bn254 Bn254Prime
  IntegerFacts IntegerSound IntegerOps IntegerComplete IntegerComplete2 IntegerComplete3
  IntegerHistory IntegerHistorySound IntegerHistoryComplete CircuitCheck.
Import ListNotations.
Local Open Scope Z_scope.

(** ** Reading an integer under an assignment *)
Definition limb (w : asg Fr) (x : aval Fr) : Z := toZ (w (av_cell x)).
Definition integer (w : asg Fr) (a : aint Fr) : Z :=
  limb w (l0 a) + limb w (l1 a) * 2 ^ 68 + limb w (l2 a) * 2 ^ 136 + limb w (l3 a) * 2 ^ 204.
Definition element (w : asg Fr) (a : aint Fr) : Fq := ofZ (integer w a).
(** Each limb is at most [K] times the largest limb. *)
Definition within (K : Z) (w : asg Fr) (a : aint Fr) : Prop :=
  limb w (l0 a) <= K * (2 ^ 68 - 1) /\ limb w (l1 a) <= K * (2 ^ 68 - 1) /\
  limb w (l2 a) <= K * (2 ^ 68 - 1) /\ limb w (l3 a) <= K * (2 ^ 50 - 1).
(** The limb invariant of C05, and a correct native cache. *)
Definition in_bounds (w : asg Fr) (a : aint Fr) : Prop :=
  within (Z.of_nat (overflows a) + 1) w a /\
  match native_of a with Some n => w (av_cell n) = ofZ (integer w a) | None => True end.
(** A boolean form, for the examples. *)
Definition in_boundsb (w : asg Fr) (a : aint Fr) : bool :=
  let K := Z.of_nat (overflows a) + 1 in
  (limb w (l0 a) <=? K * (2 ^ 68 - 1)) && (limb w (l1 a) <=? K * (2 ^ 68 - 1)) &&
  (limb w (l2 a) <=? K * (2 ^ 68 - 1)) && (limb w (l3 a) <=? K * (2 ^ 50 - 1)) &&
  match native_of a with Some n => feqbN (w (av_cell n)) (ofZ (integer w a)) | None => true end.
Lemma in_boundsb_ok w a : in_boundsb w a = true -> in_bounds w a.
Proof.
  unfold in_boundsb. intro H. repeat (apply andb_prop in H; destruct H as [H ?]).
  repeat match goal with H : (_ <=? _) = true |- _ => apply Z.leb_le in H end.
  split; [repeat split; assumption|]. destruct (native_of a); [|exact I]. unfold feqbN in *. now destruct feq_dec.
Qed.
Local Notation fr_n := (eq_refl : pf_n Fr = fr_mod).
Local Notation fq_n := (eq_refl : pf_n Fq = fq_mod).

(** ** C05: the limb invariant over every history *)

(** For every sequence of chip operations, started on an empty register file in
    any circuit, and every assignment satisfying the resulting circuit: every
    integer in a register is within the bounds given by its recorded overflow
    count (below 32), and the registers hold exactly what the sequence computes in
    the emulated field.  Missing to the full property: [mul_small_constant] by 2 or
    more, for which it is false (below). *)
Theorem C05_history_partial (w : asg Fr) os c e c' :
  Forall small_ok os ->
  run Fq os ([], []) c = Some (e, c') -> sat w c' ->
  Forall (fun a => in_bounds w a /\ (overflows a < 32)%nat) (fst e) /\
  exists bs, fsteps os ([], []) (map (element w) (fst e), bs) /\
             Forall2 (fun f (z : bool) => w (av_cell f) = if z then f1 else f0) (snd e) bs.
Proof.
  intros Ho H Hs. destruct (run_snd Fr Fq fr_n fq_n w os ([], []) Ho c e c' H Hs) as [_ Hm].
  destruct (Hm ([], []) (conj (Forall2_nil _) (Forall2_nil _))) as ([vs bs] & St & Hi & Hf). cbn [fst snd] in Hi, Hf.
  assert (E : vs = map (element w) (fst e)).
  { clear - Hi. induction Hi as [|a v is vs (Ev & _) Hi IH]; [reflexivity|]. cbn. f_equal; [now rewrite <- Ev|assumption]. }
  split.
  - clear - Hi. induction Hi as [|a v is vs (Ev & Hw & Ho) Hi IH]; constructor; [split; assumption|assumption].
  - exists bs. split; [now rewrite <- E|assumption].
Qed.
Print Assumptions C05_history_partial.

Definition ex_hist : list (iop Fq) :=
  [IAssign (q 7); IConst (q 12345678901234567890123456789); IAdd 0 1; ISub 2 0; INeg 3; IMul 2 4; ISquare 5; IDiv 6 2; IReduce 4;
   IIsZero 3; IIsEqual 1 3; IBisec 1 0 5; IMulSmall 2 1; ILastBit 7; INative 2; IAssertEqual 3 1].
Definition ex_hist_last (w : asg Fr) (e : @regs Fr) : bool :=
  match nth_error (fst e) 7 with
  | Some a => feqbN (fmul (element w a) (q (7 + 12345678901234567890123456789)))
                (fmul (q (12345678901234567890123456789 ^ 2)) (q ((7 + 12345678901234567890123456789) ^ 2)))
  | None => false end.
Example C05_example : exists e c',
  Forall small_ok ex_hist /\ run Fq ex_hist ([], []) (ctx0 Fr) = Some (e, c') /\ sat (adv c') c' /\
  length (fst e) = 10%nat /\ ex_hist_last (adv c') e = true.
Proof.
  destruct (@runs_ok Fr _ (run Fq ex_hist ([], [])) (fun w e => (length (fst e) =? 10)%nat && ex_hist_last w e)) as (e & c' & H1 & H2 & H3);
    [vm_compute; reflexivity|]. apply andb_prop in H3. destruct H3 as [H3 H4]. apply Nat.eqb_eq in H3.
  exists e, c'. split; [repeat (apply Forall_cons; [cbn; auto|]); apply Forall_nil|auto].
Qed.

(** With [mul_small_constant] the recorded count no longer bounds the limbs: the
    double of -1 is recorded with count 0, although its low limb exceeds 2^68 - 1. *)
Theorem C05_history_refuted : exists (w : asg Fr) os e c' a,
  run Fq os ([], []) (ctx0 Fr) = Some (e, c') /\ sat w c' /\ In a (fst e) /\
  overflows a = 0%nat /\ ~ limb w (l0 a) <= (Z.of_nat (overflows a) + 1) * (2 ^ 68 - 1).
Proof.
  destruct (@runs_ok Fr _ (run Fq [IAssign (q (fq_mod - 1)); IMulSmall 0 2] ([], [])) (fun w e => match nth_error (fst e) 1 with
    | Some a => (2 ^ 68 - 1 <? limb w (l0 a)) && (overflows a =? 0)%nat | _ => false end)) as (e & c' & H1 & H2 & H3);
    [vm_compute; reflexivity|].
  destruct (nth_error (fst e) 1) as [a|] eqn:E; [|discriminate]. apply andb_prop in H3. destruct H3 as [H3 H4].
  apply Z.ltb_lt in H3. apply Nat.eqb_eq in H4.
  exists (adv c'), [IAssign (q (fq_mod - 1)); IMulSmall 0 2], e, c', a.
  split; [exact H1|]. split; [exact H2|]. split; [eapply nth_error_In; exact E|]. split; [exact H4|]. rewrite H4. lia.
Qed.
Print Assumptions C05_history_refuted.

(** What does hold of [mul_small_constant]: the product is right, and bounded by the
    true factor, as long as the argument's true bound [K] times [b] stays below 128. *)
Theorem C05_mul_small_constant_true_bound (w : asg Fr) a (b : nat) K c r c' :
  mul_small_constant Fq a b c = Some (r, c') -> sat w c' ->
  1 <= K -> K * Z.of_nat b <= 128 -> within K w a -> in_bounds w a -> (overflows a < 64)%nat ->
  element w (fst r) = fmul (ofZ (Z.of_nat b)) (element w a) /\ (within (K * Z.of_nat b) w (fst r) \/ within 1 w (fst r)).
Proof.
  intros H Hs HK HKb HB Hb Hov. assert (Hb0 : b = 0%nat \/ (1 <= b)%nat) by lia. destruct Hb0 as [->|Hb1].
  - pose proof (mul_small_constant_snd Fr Fq fr_n fq_n w a 0 (Z.of_nat (overflows a) + 1) c r c' H Hs) as [_ P].
    rewrite Nat.mul_0_r in P. change (64 <=? 0)%nat with false in P. cbv zeta beta iota in P.
    destruct (P ltac:(lia) ltac:(lia) (proj1 Hb) (proj2 Hb)) as ((E & _ & Hc) & _).
    split; [exact E|]. right. destruct Hc as [(_ & _ & Hc)|(_ & Hc & _)]; [|lia]. apply (bnd_le Fr w (fst r) ((Z.of_nat (overflows a) + 1) * Z.of_nat 0)); [lia|exact Hc].
  - pose proof (mul_small_constant_snd Fr Fq fr_n fq_n w a b K c r c' H Hs) as [_ P]. cbv zeta in P.
    assert (HK1 : 1 <= K <= 128) by nia.
    assert (HK2 : (if (64 <=? overflows a * b)%nat then 1 else K) * Z.of_nat b <= 128) by (destruct (64 <=? overflows a * b)%nat; nia).
    destruct (P HK1 HK2 HB (proj2 Hb)) as ((E & _ & Hc) & _). split; [exact E|].
    destruct Hc as [(_ & _ & Hc)|(_ & _ & Hc)]; [left|right; exact Hc].
    apply (bnd_le Fr w (fst r) _ (K * Z.of_nat b)) in Hc; [exact Hc|]. destruct (64 <=? overflows a * b)%nat; nia.
Qed.
Print Assumptions C05_mul_small_constant_true_bound.

(** ** C06: multiplication *)
Theorem C06_mul_sound (w : asg Fr) a b c p a' b' c' :
  int_mul Fq a b c = Some (p, a', b', c') -> sat w c' ->
  in_bounds w a -> in_bounds w b -> (overflows a < 64)%nat -> (overflows b < 64)%nat ->
  element w p = fmul (element w a) (element w b) /\
  in_bounds w p /\ overflows p = 0%nat /\
  (in_bounds w a' /\ element w a' = element w a) /\ (in_bounds w b' /\ element w b' = element w b).
Proof.
  intros H Hs [Ba na] [Bb nb] Ha Hb.
  destruct (int_mul_snd Fr Fq fr_n fq_n w a b (Z.of_nat (overflows a) + 1) (Z.of_nat (overflows b) + 1) c _ c' H Hs) as [_ P].
  destruct (P ltac:(lia) ltac:(lia) Ba Bb na nb) as (Bp & Op & np & Ep & Sa & na' & Sb & nb').
  split; [exact Ep|]. split; [split; [rewrite Op; exact Bp|exact np]|]. split; [exact Op|].
  assert (Oa : overflows a' = overflows a) by apply Sa. assert (Ob : overflows b' = overflows b) by apply Sb.
  split; (split; [split|]).
  - rewrite Oa. exact (same_bnd Fr w a a' _ Sa Ba).
  - exact na'.
  - exact (same_fv Fr Fq w a a' Sa).
  - rewrite Ob. exact (same_bnd Fr w b b' _ Sb Bb).
  - exact nb'.
  - exact (same_fv Fr Fq w b b' Sb).
Qed.
Print Assumptions C06_mul_sound.
Theorem C06_square_sound (w : asg Fr) a c p a' c' :
  int_square Fq a c = Some (p, a', c') -> sat w c' -> in_bounds w a -> (overflows a < 64)%nat ->
  element w p = fmul (element w a) (element w a) /\ in_bounds w p /\ overflows p = 0%nat /\
  in_bounds w a' /\ element w a' = element w a.
Proof.
  intros H Hs [Ba na] Ha.
  destruct (int_square_snd Fr Fq fr_n fq_n w a (Z.of_nat (overflows a) + 1) c _ c' H Hs) as [_ P].
  destruct (P ltac:(lia) Ba na) as (Bp & Op & np & Ep & Sa & na').
  split; [exact Ep|]. split; [split; [rewrite Op; exact Bp|exact np]|]. split; [exact Op|].
  assert (Oa : overflows a' = overflows a) by apply Sa.
  split; [split; [rewrite Oa; exact (same_bnd Fr w a a' _ Sa Ba)|exact na']|exact (same_fv Fr Fq w a a' Sa)].
Qed.
Print Assumptions C06_square_sound.
(** Non-trivial instance: both arguments have overflow counts above 0. *)
Example C06_example : exists (w : asg Fr) a b c p a' b' c',
  int_mul Fq a b c = Some (p, a', b', c') /\ sat w c' /\ in_bounds w a /\ in_bounds w b /\
  (overflows a < 64)%nat /\ (overflows b < 64)%nat /\ element w p <> f0.
Proof.
  set (m := (a <- assign_w (q (fq_mod - 5)) ;; b <- assign_w (q (fq_mod - 7)) ;; a <- int_add Fq a b ;; b <- int_neg Fq b ;; ret (a, b)) : B Fr (aint Fr * aint Fr)).
  set (t := fun (w : asg Fr) (r : aint Fr * aint Fr * (aint Fr * aint Fr * aint Fr)) =>
     let '((a, b), (p, _, _)) := r in in_boundsb w a && in_boundsb w b && (overflows a <? 64)%nat && (overflows b <? 64)%nat && negb (feqbN (element w p) f0)).
  destruct (@runs2 Fr _ _ m (fun ab => int_mul Fq (fst ab) (snd ab)) t ltac:(vm_compute; reflexivity)) as ([a b] & c & [[p a'] b'] & c' & _ & E & H2 & H3).
  cbn [fst snd] in E. unfold t in H3. rewrite !andb_true_iff in H3. destruct H3 as ((((T1 & T2) & T3) & T4) & T5).
  exists (adv c'), a, b, c, p, a', b', c'. apply Nat.ltb_lt in T3, T4. apply negb_true_iff in T5.
  repeat (split; [first [assumption|now apply in_boundsb_ok]|]). now apply feqbN_no.
Qed.

(** ** C07: reduction *)
Theorem C07_reduce_sound (w : asg Fr) a c r c' :
  int_reduce Fq a c = Some (r, c') -> sat w c' -> in_bounds w a -> (overflows a < 64)%nat ->
  integer w r mod fq_mod = integer w a mod fq_mod /\ within 1 w r /\ overflows r = 0%nat /\ in_bounds w r.
Proof.
  intros H Hs [Ba na] Ha.
  destruct (reduce_snd' Fr Fq fr_n fq_n w a (Z.of_nat (overflows a) + 1) c r c' H Hs) as [_ P].
  destruct (P ltac:(lia) Ba na) as (E & nr & Or & _ & HS & H1).
  assert (B1 : within 1 w r).
  { destruct (Nat.eq_dec (overflows a) 0) as [Z0|Z0]; [|exact (H1 Z0)]. rewrite Z0 in Ba. exact (same_bnd Fr w a r 1 (HS Z0) Ba). }
  split; [now apply (ofZ_eq Fq) in E|]. split; [exact B1|]. split; [exact Or|]. split; [rewrite Or; exact B1|exact nr].
Qed.
Print Assumptions C07_reduce_sound.
(** The prover can always reduce what the chip hands out, and gets the canonical
    representative.  ([wfv]: cells assigned, count below 32, limbs within it.) *)
Theorem C07_reduce_complete (c : ctx Fr) a :
  good c -> wfv c a ->
  exists r c', int_reduce Fq a c = Some (r, c') /\ good c' /\ integer (adv c') r = bn_of a mod fq_mod /\ overflows r = 0%nat.
Proof.
  intros G Ha. destruct (int_reduce_wf Fr Fq fr_n fq_n c a Ha G) as (r & c' & E & _ & G' & (Or & Er & _ & Ov)).
  exists r, c'. split; [exact E|]. split; [exact G'|]. split; [|exact Ov]. transitivity (bn_of r); [exact (ok_iv Fr c' r Or)|exact Er].
Qed.
Print Assumptions C07_reduce_complete.

(** ** C08: addition, subtraction, negation *)
Theorem C08_add_sound (w : asg Fr) a b c r c' :
  int_add Fq a b c = Some (r, c') -> sat w c' ->
  in_bounds w a -> in_bounds w b -> (overflows a < 63)%nat -> (overflows b < 63)%nat ->
  integer w r mod fq_mod = (integer w a + integer w b) mod fq_mod /\ in_bounds w r /\ (overflows r < 32)%nat.
Proof.
  intros H Hs [Ba na] [Bb nb] Ha Hb.
  destruct (int_add_snd Fr Fq fr_n fq_n w a b (Z.of_nat (overflows a) + 1) (Z.of_nat (overflows b) + 1) c r c' H Hs) as [_ P].
  specialize (P ltac:(lia) ltac:(lia) ltac:(lia) Ba Bb).
  destruct (res_wfi Fr Fq w r _ _ _ P ltac:(lia)) as (Wr & Or & E). split; [|split; [exact Wr|exact Or]].
  unfold fv in E. rewrite <- ofZ_add in E. now apply (ofZ_eq Fq) in E.
Qed.
Print Assumptions C08_add_sound.
Theorem C08_sub_sound (w : asg Fr) a b c r c' :
  int_sub Fq a b c = Some (r, c') -> sat w c' ->
  in_bounds w a -> in_bounds w b -> (overflows a < 63)%nat -> (overflows b < 63)%nat ->
  integer w r mod fq_mod = (integer w a - integer w b) mod fq_mod /\ in_bounds w r /\ (overflows r < 32)%nat.
Proof.
  intros H Hs [Ba na] [Bb nb] Ha Hb.
  destruct (int_sub_snd Fr Fq fr_n fq_n w a b (Z.of_nat (overflows a) + 1) c r c' H Hs) as [_ P].
  specialize (P ltac:(lia) ltac:(lia) ltac:(lia) Ba Bb).
  destruct (res_wfi Fr Fq w r _ _ _ P ltac:(lia)) as (Wr & Or & E). split; [|split; [exact Wr|exact Or]].
  unfold fv in E. rewrite <- ofZ_sub in E. now apply (ofZ_eq Fq) in E.
Qed.
Print Assumptions C08_sub_sound.
Theorem C08_neg_sound (w : asg Fr) a c r c' :
  int_neg Fq a c = Some (r, c') -> sat w c' -> in_bounds w a -> (overflows a < 63)%nat ->
  integer w r mod fq_mod = (- integer w a) mod fq_mod /\ in_bounds w r /\ (overflows r < 32)%nat.
Proof.
  intros H Hs [Ba na] Ha.
  destruct (int_neg_snd Fr Fq fr_n fq_n w a c r c' H Hs) as [_ P].
  specialize (P ltac:(lia) Ba).
  destruct (res_wfi Fr Fq w r _ _ _ P ltac:(lia)) as (Wr & Or & E). split; [|split; [exact Wr|exact Or]].
  unfold fv in E. rewrite <- ofZ_opp in E. now apply (ofZ_eq Fq) in E.
Qed.
Print Assumptions C08_neg_sound.
(** The hypotheses of C07 and C08 are met by a run: a difference of a difference,
    whose arguments are not reduced. *)
Example C08_example : exists (w : asg Fr) a b c r c',
  int_sub Fq a b c = Some (r, c') /\ sat w c' /\ in_bounds w a /\ in_bounds w b /\ (0 < overflows a < 63)%nat /\ (0 < overflows b < 63)%nat /\
  element w r = q (- 9).
Proof.
  set (m := (a <- assign_w (q 1) ;; b <- assign_w (q (fq_mod - 7)) ;; d <- int_sub Fq a b ;; b <- int_add Fq a d ;; s <- int_add Fq b d ;;
             ret (d, s)) : B Fr (aint Fr * aint Fr)).
  set (t := fun (w : asg Fr) (r : aint Fr * aint Fr * aint Fr) =>
     let '((a, b), p) := r in in_boundsb w a && in_boundsb w b && ((0 <? overflows a) && (overflows a <? 63))%nat
       && ((0 <? overflows b) && (overflows b <? 63))%nat && feqbN (element w p) (q (- 9))).
  destruct (@runs2 Fr _ _ m (fun ab => int_sub Fq (fst ab) (snd ab)) t ltac:(vm_compute; reflexivity)) as ([a b] & c & r & c' & _ & E & H2 & H3).
  cbn [fst snd] in E. unfold t in H3. rewrite !andb_true_iff in H3. destruct H3 as ((((T1 & T2) & T3 & T3') & T4 & T4') & T5).
  exists (adv c'), a, b, c, r, c'. apply Nat.ltb_lt in T3, T4, T3', T4'.
  repeat (split; [first [assumption|now apply in_boundsb_ok|now split]|]). now apply feqbN_ok.
Qed.

(** ** C09: zero and equality tests *)
Theorem C09_is_zero_sound (w : asg Fr) a c z a' c' :
  int_is_zero Fq a c = Some ((z, a'), c') -> sat w c' -> in_bounds w a -> (overflows a < 64)%nat ->
  (integer w a mod fq_mod = 0 -> w (av_cell z) = f1) /\ (integer w a mod fq_mod <> 0 -> w (av_cell z) = f0) /\
  in_bounds w a' /\ element w a' = element w a.
Proof.
  intros H Hs [Ba na] Ha.
  destruct (int_is_zero_snd Fr Fq fr_n fq_n w a (Z.of_nat (overflows a) + 1) c _ c' H Hs) as [_ P].
  destruct (P ltac:(lia) Ba na) as ([F1 F0] & (E & nr & Or & _ & HS & H1)). cbn [fst snd] in *.
  assert (B1 : within 1 w a').
  { destruct (Nat.eq_dec (overflows a) 0) as [Z0|Z0]; [|exact (H1 Z0)]. rewrite Z0 in Ba. exact (same_bnd Fr w a a' 1 (HS Z0) Ba). }
  pose proof (zform_iff Fr Fq fr_n fq_n w a' B1) as Zf. rewrite E in Zf.
  assert (Ez : fv Fq w a = f0 <-> integer w a mod fq_mod = 0) by exact (wv_0 Fq fq_n (integer w a)).
  split; [intro; apply F1, Zf, Ez; assumption|]. split; [intro Hn; apply F0; intro; apply Hn, Ez, Zf; assumption|].
  split; [split; [rewrite Or; exact B1|exact nr]|exact E].
Qed.
Print Assumptions C09_is_zero_sound.
Theorem C09_is_equal_sound (w : asg Fr) a b c z c' :
  int_is_equal Fq a b c = Some (z, c') -> sat w c' ->
  in_bounds w a -> in_bounds w b -> (overflows a < 63)%nat -> (overflows b < 63)%nat ->
  (integer w a mod fq_mod = integer w b mod fq_mod -> w (av_cell z) = f1) /\
  (integer w a mod fq_mod <> integer w b mod fq_mod -> w (av_cell z) = f0).
Proof.
  intros H Hs [Ba na] [Bb nb] Ha Hb.
  destruct (int_is_equal_snd Fr Fq fr_n fq_n w a b (Z.of_nat (overflows a) + 1) c z c' H Hs) as [_ P].
  destruct (P ltac:(lia) ltac:(lia) ltac:(lia) Ba Bb) as [P1 P0].
  assert (Ez : fv Fq w a = fv Fq w b <-> integer w a mod fq_mod = integer w b mod fq_mod) by exact (ofZ_eq Fq _ _).
  split; intro Hn; [apply P1, Ez; assumption|apply P0; intro; apply Hn, Ez; assumption].
Qed.
Print Assumptions C09_is_equal_sound.
Theorem C09_assert_equal_sound (w : asg Fr) a b c u c' :
  int_assert_equal Fq a b c = Some (u, c') -> sat w c' ->
  in_bounds w a -> in_bounds w b -> (overflows a < 63)%nat -> (overflows b < 63)%nat ->
  integer w a mod fq_mod = integer w b mod fq_mod.
Proof.
  intros H Hs [Ba na] [Bb nb] Ha Hb.
  destruct (int_assert_equal_snd Fr Fq fr_n fq_n w a b (Z.of_nat (overflows a) + 1) c u c' H Hs) as [_ P].
  pose proof (P ltac:(lia) ltac:(lia) ltac:(lia) Ba Bb) as E. now apply (ofZ_eq Fq) in E.
Qed.
Print Assumptions C09_assert_equal_sound.
(** Conversely the prover can satisfy the assertion whenever the values are congruent. *)
Theorem C09_assert_equal_complete (c : ctx Fr) a b :
  good c -> wfv c a -> wfv c b -> (overflows a + overflows b < 62)%nat ->
  bn_of a mod fq_mod = bn_of b mod fq_mod ->
  exists c', int_assert_equal Fq a b c = Some (tt, c') /\ sat (adv c') c'.
Proof.
  intros G Ha Hb Hov E. destruct (int_assert_equal_wf Fr Fq fr_n fq_n c a b Ha Hb Hov E G) as ([] & c' & R & _ & G' & _).
  exists c'. split; [exact R|]. exact (good_sat Fr c' G').
Qed.
Print Assumptions C09_assert_equal_complete.
Theorem C09_tests_complete (c : ctx Fr) a b :
  good c -> wfv c a -> wfv c b -> (overflows a + overflows b < 62)%nat ->
  (exists z a' c', int_is_zero Fq a c = Some ((z, a'), c') /\ sat (adv c') c') /\
  (exists z c', int_is_equal Fq a b c = Some (z, c') /\ sat (adv c') c').
Proof.
  intros G Ha Hb Hov. split.
  - destruct (int_is_zero_wf Fr Fq fr_n fq_n c a Ha G) as ([z a'] & c' & R & _ & G' & _). exists z, a', c'. split; [exact R|exact (good_sat Fr c' G')].
  - destruct (int_is_equal_wf Fr Fq fr_n fq_n c a b Ha Hb Hov G) as (z & c' & R & _ & G' & _). exists z, c'. split; [exact R|exact (good_sat Fr c' G')].
Qed.
Print Assumptions C09_tests_complete.
(** A satisfying assignment where an integer is the modulus itself (a second form
    of zero): is_zero still answers 1. *)
Example C09_example : exists (w : asg Fr) a c z a' c',
  int_is_zero Fq a c = Some ((z, a'), c') /\ sat w c' /\ in_bounds w a /\ (overflows a < 64)%nat /\
  integer w a = fq_mod /\ w (av_cell z) = f1.
Proof.
  set (t := fun (w : asg Fr) (r : aint Fr * (aval Fr * aint Fr)) => let '(a, (z, _)) := r in
     in_boundsb w a && (overflows a <? 64)%nat && (integer w a =? fq_mod) && feqbN (w (av_cell z)) f1).
  destruct (@fools2 Fr _ _ _ (assign_w (q 0)) (fun a => int_is_zero Fq a) (a <- assign_limbs_of fq_mod ;; int_is_zero Fq a) t ltac:(vm_compute; reflexivity))
    as (a & c & [z a'] & c' & w & _ & E & H2 & H3).
  unfold t in H3. rewrite !andb_true_iff in H3. destruct H3 as (((T1 & T2) & T3) & T4). exists w, a, c, z, a', c'.
  apply Nat.ltb_lt in T2. apply Z.eqb_eq in T3.
  repeat (split; [first [assumption|now apply in_boundsb_ok]|]). now apply feqbN_ok.
Qed.
(** Without the limb invariant the test is wrong: the double of zero, computed by
    [mul_small_constant] and represented as twice the modulus, is reported non-zero. *)
Theorem C09_is_zero_after_mul_small_constant_refuted : exists (w : asg Fr) a p z c,
  (a <- assign_w (q 0) ;; r <- mul_small_constant Fq a 2 ;; z <- int_is_zero Fq (fst r) ;; ret (a, fst r, fst z)) (ctx0 Fr) = Some ((a, p, z), c) /\
  sat w c /\ element w a = f0 /\ element w p = f0 /\ w (av_cell z) = f0.
Proof.
  set (m := (a <- assign_w (q 0) ;; r <- mul_small_constant Fq a 2 ;; z <- int_is_zero Fq (fst r) ;; ret (a, fst r, fst z)) : B Fr _).
  set (m' := (a <- assign_limbs_of fq_mod ;; r <- mul_small_constant Fq a 2 ;; z <- int_is_zero Fq (fst r) ;; ret (a, fst r, fst z)) : B Fr _).
  assert (Hr : @fools Fr _ _ m m' (fun w r => let '(a, p, z) := r in
     feqbN (element w a) f0 && feqbN (element w p) f0 && feqbN (w (av_cell z)) f0) = true) by (vm_compute; reflexivity).
  destruct (fools_ok _ _ _ Hr) as ([[a p] z] & c & w & H1 & H2 & H3). rewrite !andb_true_iff in H3. destruct H3 as ((T1 & T2) & T3).
  exists w, a, p, z, c. split; [exact H1|]. split; [exact H2|]. repeat split; now apply feqbN_ok.
Qed.
Print Assumptions C09_is_zero_after_mul_small_constant_refuted.

(** ** C10: division *)
Theorem C10_div_sound (w : asg Fr) a b c z d a' b' c' :
  int_div Fq a b c = Some (z, d, a', b', c') -> sat w c' ->
  in_bounds w a -> in_bounds w b -> (overflows a < 64)%nat -> (overflows b < 64)%nat ->
  (integer w b mod fq_mod = 0 -> w (av_cell z) = f1) /\
  (integer w b mod fq_mod <> 0 -> w (av_cell z) = f0 /\ (integer w d * integer w b) mod fq_mod = integer w a mod fq_mod) /\
  in_bounds w d /\ overflows d = 0%nat.
Proof.
  intros H Hs [Ba na] [Bb nb] Ha Hb.
  destruct (int_div_snd Fr Fq fr_n fq_n w a b (Z.of_nat (overflows a) + 1) (Z.of_nat (overflows b) + 1) c _ c' H Hs) as [_ P].
  destruct (P ltac:(lia) ltac:(lia) Ba Bb na nb) as ([F1 F0] & _ & (E & nr & Or & _ & HS & H1) & Bd & Od & nd & Hd).
  assert (B1 : within 1 w b').
  { destruct (Nat.eq_dec (overflows b) 0) as [Z0|Z0]; [|exact (H1 Z0)]. rewrite Z0 in Bb. exact (same_bnd Fr w b b' 1 (HS Z0) Bb). }
  pose proof (zform_iff Fr Fq fr_n fq_n w b' B1) as Zf. rewrite E in Zf.
  assert (Ez : fv Fq w b = f0 <-> integer w b mod fq_mod = 0) by exact (wv_0 Fq fq_n (integer w b)).
  split; [intro; apply F1, Zf, Ez; assumption|]. split; [|split; [split; [rewrite Od; exact Bd|exact nd]|exact Od]].
  intro Hn. assert (Hz : ~ zform Fr w b') by (intro; apply Hn, Ez, Zf; assumption). split; [exact (F0 Hz)|].
  specialize (Hd Hz). unfold fv in Hd. rewrite <- ofZ_mul in Hd. now apply (ofZ_eq Fq) in Hd.
Qed.
Print Assumptions C10_div_sound.
(** The prover can always divide what the chip hands out (also by zero). *)
Theorem C10_div_complete (c : ctx Fr) a b :
  good c -> wfv c a -> wfv c b ->
  exists z d a' b' c', int_div Fq a b c = Some (z, d, a', b', c') /\ sat (adv c') c'.
Proof.
  intros G Ha Hb. destruct (int_div_wf Fr Fq fr_n fq_n c a b Ha Hb G) as ([[[z d] a'] b'] & c' & R & _ & G' & _).
  exists z, d, a', b', c'. split; [exact R|exact (good_sat Fr c' G')].
Qed.
Print Assumptions C10_div_complete.
Example C10_example : exists (w : asg Fr) a b c z d a' b' c',
  int_div Fq a b c = Some (z, d, a', b', c') /\ sat w c' /\ in_bounds w a /\ in_bounds w b /\
  (0 < overflows a < 64)%nat /\ (0 < overflows b < 64)%nat /\ w (av_cell z) = f0 /\ element w d = q 3.
Proof.
  set (m := (a <- assign_w (q (fq_mod - 7)) ;; b <- int_neg Fq a ;; s <- int_add Fq b b ;; s <- int_add Fq s b ;; ret (s, b)) : B Fr (aint Fr * aint Fr)).
  set (t := fun (w : asg Fr) (r : aint Fr * aint Fr * (aval Fr * aint Fr * aint Fr * aint Fr)) =>
     let '((a, b), (z, d, _, _)) := r in in_boundsb w a && in_boundsb w b && ((0 <? overflows a) && (overflows a <? 64))%nat
       && ((0 <? overflows b) && (overflows b <? 64))%nat && feqbN (w (av_cell z)) f0 && feqbN (element w d) (q 3)).
  destruct (@runs2 Fr _ _ m (fun ab => int_div Fq (fst ab) (snd ab)) t ltac:(vm_compute; reflexivity)) as ([a b] & c & [[[z d] a'] b'] & c' & _ & E & H2 & H3).
  cbn [fst snd] in E. unfold t in H3. rewrite !andb_true_iff in H3.
  destruct H3 as (((((T1 & T2) & T3 & T3') & T4 & T4') & T5) & T6).
  exists (adv c'), a, b, c, z, d, a', b', c'. apply Nat.ltb_lt in T3, T4, T3', T4'.
  repeat (split; [first [assumption|now apply in_boundsb_ok|now split|now apply feqbN_ok]|]). now apply feqbN_ok.
Qed.

(** ** C11: the overflow budget *)

(** Every sequence of operations that stays in the envelope of [hstep]
    (IntegerHistory.v: registers exist, no difference or equality test of two
    integers with 31 recorded overflows each, asserted values equal, parity asked
    of reduced integers only, no [mul_small_constant] by 2 or more) runs to the end
    without aborting, leaves a satisfied circuit, and computes the expected field
    elements and counts.  Missing to the full property: the calls outside the
    envelope, which do abort (below). *)
Theorem C11_no_abort_partial os (s : hstate Fq) :
  hsteps os ([], []) = Some s ->
  exists e c', run Fq os ([], []) (ctx0 Fr) = Some (e, c') /\ sat (adv c') c' /\
    map (element (adv c')) (fst e) = map fst (fst s) /\ map (@overflows Fr) (fst e) = map snd (fst s).
Proof.
  intro H. destruct (run_cpl Fr Fq fr_n fq_n (ctx0 Fr) os ([], []) ([], []) s H (conj (Forall2_nil _) (Forall2_nil _)) (good_ctx0 Fr))
    as (e & c' & R & _ & G & Hi & _).
  exists e, c'. split; [exact R|]. split; [exact (good_sat Fr c' G)|]. clear - Hi.
  induction Hi as [|a v is vs (Wa & Ev & Eo) Hi [IH1 IH2]]; [split; reflexivity|]. cbn [map]. split; f_equal; try assumption.
  rewrite <- Ev. unfold element. f_equal. exact (ok_iv Fr c' a (proj1 Wa)).
Qed.
Print Assumptions C11_no_abort_partial.
Example C11_example : exists s, hsteps ex_hist ([], []) = Some s /\ length (fst s) = 10%nat.
Proof.
  destruct (hsteps ex_hist ([], [])) as [s|] eqn:E.
  - exists s. split; [reflexivity|]. assert (H : match hsteps ex_hist ([], []) with Some s => length (fst s) | None => 0%nat end = 10%nat) by (vm_compute; reflexivity).
    now rewrite E in H.
  - exfalso. assert (H : match hsteps ex_hist ([], []) with Some _ => true | None => false end = true) by (vm_compute; reflexivity). now rewrite E in H.
Qed.
(** Only additions of an assigned value, then one difference: the chip aborts. *)
Definition doublings : list (iop Fq) := [IAssign (q 5); IAdd 0 0; IAdd 1 1; IAdd 2 2; IAdd 3 3; IAdd 4 4].
Theorem C11_no_abort_refuted : exists os : list (iop Fq),
  (exists e c', run Fq os ([], []) (ctx0 Fr) = Some (e, c') /\ sat (adv c') c' /\ (5 < length (fst e))%nat) /\
  run Fq (os ++ [ISub 5 5]) ([], []) (ctx0 Fr) = None.
Proof.
  exists doublings. split.
  - destruct (@runs_ok Fr _ (run Fq doublings ([], [])) (fun _ e => (5 <? length (fst e))%nat)) as (e & c' & H1 & H2 & H3); [vm_compute; reflexivity|].
    exists e, c'. split; [exact H1|]. split; [exact H2|]. now apply Nat.ltb_lt.
  - apply (@aborts_ok Fr _ (run Fq (doublings ++ [ISub 5 5]) ([], []))). vm_compute. reflexivity.
Qed.
Print Assumptions C11_no_abort_refuted.
(** A negative big-integer subtraction: dividing thrice -1 by 1. *)
Theorem C11_div_underflow_refuted : exists (os : list (iop Fq)) e c',
  run Fq os ([], []) (ctx0 Fr) = Some (e, c') /\ sat (adv c') c' /\ length (fst e) = 3%nat /\
  run Fq (os ++ [IDiv 1 2]) ([], []) (ctx0 Fr) = None.
Proof.
  set (os := [IAssign (q (fq_mod - 1)); IMulSmall 0 3; IAssign (q 1)]).
  destruct (@runs_ok Fr _ (run Fq os ([], [])) (fun _ e => (length (fst e) =? 3)%nat)) as (e & c' & H1 & H2 & H3); [vm_compute; reflexivity|].
  exists os, e, c'. split; [exact H1|]. split; [exact H2|]. split; [now apply Nat.eqb_eq|].
  apply (@aborts_ok Fr _ (run Fq (os ++ [IDiv 1 2]) ([], []))). vm_compute. reflexivity.
Qed.
Print Assumptions C11_div_underflow_refuted.

(** ** C12: the parity bit *)

(** The bit is the parity of the integer the limbs denote.  Missing to the full
    property: it is not determined by the element (below), because the limbs may
    denote the canonical representative or that plus the modulus. *)
Theorem C12_last_bit_partial (w : asg Fr) a c z c' :
  get_last_bit a c = Some (z, c') -> sat w c' -> in_bounds w a -> (overflows a < 64)%nat ->
  limb w z = integer w a mod 2 /\
  (integer w a < fq_mod -> limb w z = toZ (element w a) mod 2).
Proof.
  intros H Hs [Ba na] Ha. destruct (get_last_bit_snd Fr fr_n w a (Z.of_nat (overflows a) + 1) c z c' H Hs) as [_ P].
  specialize (P ltac:(lia) Ba). split; [exact P|]. intro Hc. transitivity (integer w a mod 2); [exact P|]. f_equal.
  unfold element. symmetry. apply (toZ_small Fq). split; [exact (iv_nonneg Fr fr_n w a)|exact Hc].
Qed.
Print Assumptions C12_last_bit_partial.
Theorem C12_last_bit_refuted : exists (w1 w2 : asg Fr) a z c,
  (a <- assign_w (q 0) ;; z <- get_last_bit a ;; ret (a, z)) (ctx0 Fr) = Some ((a, z), c) /\
  sat w1 c /\ sat w2 c /\ element w1 a = element w2 a /\ w1 (av_cell z) = f0 /\ w2 (av_cell z) = f1.
Proof.
  set (m := (a <- assign_w (q 0) ;; z <- get_last_bit a ;; ret (a, z)) : B Fr _).
  set (m' := (a <- assign_limbs_of fq_mod ;; z <- get_last_bit a ;; ret (a, z)) : B Fr _).
  assert (Hr : @fools Fr _ _ m m' (fun w r => let '(a, z) := r in feqbN (element w a) f0 && feqbN (w (av_cell z)) f1) = true) by (vm_compute; reflexivity).
  assert (Hr' : @fools Fr _ _ m m (fun w r => let '(a, z) := r in feqbN (element w a) f0 && feqbN (w (av_cell z)) f0) = true) by (vm_compute; reflexivity).
  destruct (fools_ok _ _ _ Hr) as ([a z] & c & w & H1 & H2 & H3). destruct (fools_ok _ _ _ Hr') as ([a1 z1] & c1 & w1 & H1' & H2' & H3').
  rewrite H1 in H1'. injection H1' as <- <- <-. apply andb_prop in H3, H3'. destruct H3 as [T1 T2], H3' as [T1' T2'].
  exists w1, w, a, z, c. split; [exact H1|]. split; [exact H2'|]. split; [exact H2|].
  apply feqbN_ok in T1, T2, T1', T2'. split; [now rewrite T1, T1'|]. now split.
Qed.
Print Assumptions C12_last_bit_refuted.
Example C12_example : exists (w : asg Fr) a c z c',
  get_last_bit a c = Some (z, c') /\ sat w c' /\ in_bounds w a /\ (overflows a < 64)%nat /\ integer w a < fq_mod /\ limb w z = 1.
Proof.
  set (t := fun (w : asg Fr) (r : aint Fr * aval Fr) => let '(a, z) := r in
     in_boundsb w a && (overflows a <? 64)%nat && (integer w a <? fq_mod) && (limb w z =? 1)).
  destruct (@runs2 Fr _ _ (assign_w (q 123457)) (fun a => get_last_bit a) t ltac:(vm_compute; reflexivity)) as (a & c & z & c' & _ & E & H2 & H3).
  unfold t in H3. rewrite !andb_true_iff in H3. destruct H3 as (((T1 & T2) & T3) & T4). exists (adv c'), a, c, z, c'.
  apply Nat.ltb_lt in T2. apply Z.ltb_lt in T3. apply Z.eqb_eq in T4.
  repeat (split; [first [assumption|now apply in_boundsb_ok]|]). assumption.
Qed.
