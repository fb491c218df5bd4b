(** Properties C40, C41, C42, C44, C48: what surrounds the verifier in the aggregation
    circuit - its public inputs, the files they are kept in, and which proofs are handed to
    it. *)
From Coq Require Import String ZArith NArith Arith Bool Lia List.
From Verif Require Import Util Algebra Schema Plonk PlonkSpec Keys Poseidon BuildParams ReaderProofs AggregationProofs Properties_Reader.
From Verif Require Import PField Bytes Gate GateProofs GateOps GateExtra Integer Bn254 Bn254Prime
  IntegerFacts IntegerSound IntegerOps IntegerComplete IntegerComplete2 IntegerComplete3
  CircuitCheck Curve CurveAssoc Bn254Curve Ecc IntegerValue EccSound EccScalar EccMul EccComplete EccHistory
  GeneratorOrder Properties_Integer Properties_Ecc Evm EvmProofs VerifyCircuit VerifyCircuitProofs.
Import ListNotations.
Local Open Scope Z_scope.
Local Notation f101 := ApiProofs.f101.
Local Notation fr_n := (eq_refl : pf_n Fr = fr_mod).
Local Notation fq_n := (eq_refl : pf_n Fq = fq_mod).

(** ** C40: the final pair in the public inputs

    A point (x, y) is given by two numbers ([point_words]): [x mod 2^136] and
    [x / 2^136 + 2^136 * (y mod 2)]. *)
Definition words (P : point Fq) : list Z := match P with Inf => [] | Aff x y => point_words (toZ x) (toZ y) end.
Definition coords_of (P : point Fq) : list Z := match P with Inf => [0; 0] | Aff x y => [toZ x; toZ y] end.

Lemma map_toZ_inj (l : list Fr) : forall l', map toZ l = map toZ l' -> l = l'.
Proof.
  induction l as [|x l IH]; intros [|y l'] E; try discriminate; [reflexivity|]. cbn [map] in E.
  assert (E1 := f_equal (hd 0) E). assert (E2 := f_equal (@tl _) E). cbn [hd tl] in E1, E2. f_equal; [now apply toZ_inj|now apply IH].
Qed.
(** The numbers computed natively. *)
Theorem C40_native (P Q : point Fq) (ins ns : list Fr) :
  final_pair_to_instances Fr Fq P Q ins = Some ns <->
  P <> Inf /\ Q <> Inf /\ map toZ ns = words P ++ words Q ++ map toZ ins.
Proof.
  assert (H : forall x0 y0 x1 y1, map toZ (low_word Fr Fq x0 :: high_word Fr Fq x0 y0 :: low_word Fr Fq x1 :: high_word Fr Fq x1 y1 :: ins) =
    point_words (toZ x0) (toZ y0) ++ point_words (toZ x1) (toZ y1) ++ map toZ ins).
  { intros x0 y0 x1 y1. rewrite <- (native_words Fr Fq fr_n fq_n x0 y0), <- (native_words Fr Fq fr_n fq_n x1 y1). reflexivity. }
  destruct P as [|x0 y0], Q as [|x1 y1]; cbn [final_pair_to_instances words]; try (split; [discriminate|intros (H1 & H2 & _); congruence]).
  split.
  - intros [= <-]. split; [discriminate|]. split; [discriminate|apply H].
  - intros (_ & _ & E). f_equal. apply map_toZ_inj. rewrite E. apply H.
Qed.
Print Assumptions C40_native.
(** The contract recomputes the same numbers from the coordinates. *)
Theorem C40_native_is_contract (P Q : point Fq) (ins ns : list Fr) :
  final_pair_to_instances Fr Fq P Q ins = Some ns ->
  contract_instances (4 + length ins) (coords_of P ++ coords_of Q ++ map toZ ins) = Some (map toZ ns).
Proof.
  intro E. apply C40_native in E as (HP & HQ & ->). destruct P as [|x0 y0]; [congruence|]. destruct Q as [|x1 y1]; [congruence|].
  cbn [coords_of app words]. rewrite <- (map_length toZ ins). apply contract_words.
  - pose proof (coord_rng Fq fq_n x0). pose proof fq_254. lia.
  - pose proof (coord_rng Fq fq_n x1). pose proof fq_254. lia.
Qed.
Print Assumptions C40_native_is_contract.

(** Distinct pairs of curve points, or distinct inputs, have distinct numbers. *)
Lemma parity_neg (y : Fq) : toZ y mod 2 = toZ (fopp y) mod 2 -> y = f0.
Proof.
  intro E. destruct (Z.eq_dec (toZ y) 0) as [H|H]; [now apply toZ_eq0|exfalso].
  pose proof (coord_rng Fq fq_n y) as R.
  assert (X : toZ (fopp y) = fq_mod - toZ y).
  { transitivity (toZ (fopp (@ofZ Fq (toZ y)))); [now rewrite ofZ_toZ|]. rewrite <- ofZ_opp, toZ_ofZ. change (pf_n Fq) with fq_mod.
    symmetry. apply Z.mod_unique with (q := -1); [left; lia|ring]. }
  rewrite X in E. assert (O : fq_mod mod 2 = 1) by (vm_compute; reflexivity). revert E O R H. clear. generalize (toZ y) fq_mod. intros a p E O R H.
  pose proof (Z.div_mod a 2 ltac:(lia)). pose proof (Z.div_mod (p - a) 2 ltac:(lia)). pose proof (Z.div_mod p 2 ltac:(lia)).
  pose proof (Z.mod_pos_bound a 2 ltac:(lia)). lia.
Qed.
Lemma same_x (x y y' : Fq) : on_curve b3 (Aff x y) -> on_curve b3 (Aff x y') -> y' = y \/ y' = fopp y.
Proof.
  cbn [on_curve]. intros E E'. rewrite <- E in E'. assert (Z : fmul (fsub y' y) (fadd y' y) = f0).
  { transitivity (fsub (fmul y' y') (fmul y y)); [ring|]. rewrite E'. ring. }
  apply fmul_integral in Z as [Z|Z].
  - left. transitivity (fadd (fsub y' y) y); [ring|]. rewrite Z. ring.
  - right. transitivity (fsub (fadd y' y) y); [ring|]. rewrite Z. ring.
Qed.
Lemma words_inj (P P' : point Fq) : on_curve b3 P -> on_curve b3 P' -> P <> Inf -> P' <> Inf -> words P = words P' -> P = P'.
Proof.
  intros O O' H H' E. destruct P as [|x y]; [congruence|]. destruct P' as [|x' y']; [congruence|]. cbn [words] in E.
  pose proof (coord_rng Fq fq_n x). pose proof (coord_rng Fq fq_n x'). pose proof fq_254.
  apply point_words_inj in E as [Ex Ey]; [|lia|lia]. apply toZ_inj in Ex. subst x'.
  destruct (same_x x y y' O O') as [->| ->]; [reflexivity|]. apply parity_neg in Ey. subst y. f_equal.
Qed.
Lemma words_length P : P <> Inf -> length (words P) = 2%nat.
Proof. destruct P; [congruence|reflexivity]. Qed.
Lemma app_eq_len {A} (a b c d : list A) : length a = length b -> a ++ c = b ++ d -> a = b /\ c = d.
Proof.
  revert b. induction a as [|x a IH]; intros [|y b] L E; try discriminate; [now split|]. cbn in E. injection E as -> E. injection L as L.
  destruct (IH b L E) as [-> ->]. now split.
Qed.
Theorem C40_injective (P Q P' Q' : point Fq) (ins ins' ns : list Fr) :
  on_curve b3 P -> on_curve b3 Q -> on_curve b3 P' -> on_curve b3 Q' ->
  final_pair_to_instances Fr Fq P Q ins = Some ns -> final_pair_to_instances Fr Fq P' Q' ins' = Some ns ->
  P = P' /\ Q = Q' /\ ins = ins'.
Proof.
  intros OP OQ OP' OQ' E E'.
  apply C40_native in E as (H1 & H2 & E). apply C40_native in E' as (H1' & H2' & E'). rewrite E in E'.
  apply app_eq_len in E' as [A E']; [|now rewrite !words_length]. apply app_eq_len in E' as [B C]; [|now rewrite !words_length].
  split; [now apply words_inj|]. split; [now apply words_inj|now apply map_toZ_inj].
Qed.
Print Assumptions C40_injective.

(** The public cells of the circuit.  For prover values of the two points (finite, any
    admissible overflow counts) the circuit can be satisfied and the cells hold the native
    numbers. *)
Theorem C40_circuit_complete (c : ctx Fr) p1 p2 (x0 y0 x1 y1 : Fq) i0 j0 i1 j1 cells ns :
  good c -> has_pt Fr Fq c p1 x0 y0 false i0 j0 -> has_pt Fr Fq c p2 x1 y1 false i1 j1 -> Forall (valid c) cells ->
  final_pair_to_instances Fr Fq (Aff x0 y0) (Aff x1 y1) (map av_val cells) = Some ns ->
  exists column c', synthesize_tail Fr Fq p1 p2 cells c = Some (column, c') /\ sat (adv c') c' /\
    map (fun a => adv c' (av_cell a)) column = ns.
Proof.
  intros Gc H1 H2 Hv E. apply C40_native in E as (_ & _ & E). cbn [words] in E.
  destruct (synthesize_tail_cpl Fr Fq fr_n fq_n c p1 p2 x0 y0 i0 j0 x1 y1 i1 j1 cells H1 H2 Hv Gc) as (column & c' & R & _ & G' & V & Ev).
  exists column, c'. split; [exact R|]. split; [exact (good_sat Fr c' G')|]. rewrite map_map in E. rewrite <- E in Ev. clear - V Ev.
  revert ns Ev. induction V as [|a l [_ Ha] V IH]; intros [|n ns] Ev; try discriminate; [reflexivity|]. cbn [map] in *.
  assert (E1 := f_equal (hd 0) Ev). assert (E2 := f_equal (@tl _) Ev). cbn [hd tl] in E1, E2. apply toZ_inj in E1. f_equal; [congruence|now apply IH].
Qed.
Print Assumptions C40_circuit_complete.
(** In every satisfying assignment both points are finite and the cells hold the numbers of
    some integers below 2^254 that represent the coordinates.  Missing to the full property:
    those integers need not be below the modulus (refuted below), so the parity of the
    ordinate is not bound. *)
Theorem C40_circuit_sound_partial (w : asg Fr) p1 p2 ins c column c' (P Q : point Fq) :
  synthesize_tail Fr Fq p1 p2 ins c = Some (column, c') -> sat w c' -> represents w p1 P -> represents w p2 Q ->
  exists x0 y0 x1 y1, (0 <= x0 < 2 ^ 254 /\ 0 <= y0 < 2 ^ 254 /\ P = Aff (ofZ x0) (ofZ y0)) /\
    (0 <= x1 < 2 ^ 254 /\ 0 <= y1 < 2 ^ 254 /\ Q = Aff (ofZ x1) (ofZ y1)) /\
    map (limb w) column = point_words x0 y0 ++ point_words x1 y1 ++ map (limb w) ins.
Proof.
  intros E Hs [(X1 & Y1 & Z1) _] [(X2 & Y2 & Z2) _].
  assert (G : forall a, good_int w a -> wfi w a /\ (overflows a < 64)%nat) by (intros a [Ha Ho]; split; [exact Ha|lia]).
  destruct (synthesize_tail_snd Fr Fq fr_n fq_n w p1 p2 ins c column c' E Hs) as [_ K].
  destruct (K (conj (G _ X1) (G _ Y1)) (conj (G _ X2) (G _ Y2))) as (F1 & F2 & ws & -> & x0 & y0 & x1 & y1 & Ew & (Rx0 & Ex0) & (Ry0 & Ey0) & (Rx1 & Ex1) & (Ry1 & Ey1)).
  exists x0, y0, x1, y1. split.
  - split; [exact Rx0|]. split; [exact Ry0|]. destruct Z1 as [[Z1 _]|(_ & -> & _)]; [exfalso; apply f1_f0; now rewrite <- Z1, <- F1|].
    rewrite Ex0, Ey0. reflexivity.
  - split.
    + split; [exact Rx1|]. split; [exact Ry1|]. destruct Z2 as [[Z2 _]|(_ & -> & _)]; [exfalso; apply f1_f0; now rewrite <- Z2, <- F2|].
      rewrite Ex1, Ey1. reflexivity.
    + rewrite map_app. change (map (limb w) ws) with (map (zv Fr w) ws). rewrite Ew, <- app_assoc. reflexivity.
Qed.
Print Assumptions C40_circuit_sound_partial.
(** What the public inputs bind: when they are the numbers of curve points [P'], [Q'], the
    circuit's pair is that pair up to the signs of the two points. *)
Theorem C40_bound_up_to_sign (w : asg Fr) p1 p2 cells c column c' (P Q P' Q' : point Fq) ins' ns :
  synthesize_tail Fr Fq p1 p2 cells c = Some (column, c') -> sat w c' -> represents w p1 P -> represents w p2 Q ->
  on_curve b3 P' -> on_curve b3 Q' -> final_pair_to_instances Fr Fq P' Q' ins' = Some ns ->
  map (fun a => w (av_cell a)) column = ns ->
  (P = P' \/ P = pneg P') /\ (Q = Q' \/ Q = pneg Q') /\ map (fun a => w (av_cell a)) cells = ins'.
Proof.
  intros E Hs HP HQ OP' OQ' En Ec.
  assert (OP : on_curve b3 P) by (destruct HP as [(_ & _ & [[_ ->]|(_ & _ & H)]) _]; [exact I|exact H]).
  assert (OQ : on_curve b3 Q) by (destruct HQ as [(_ & _ & [[_ ->]|(_ & _ & H)]) _]; [exact I|exact H]).
  destruct (C40_circuit_sound_partial w p1 p2 cells c column c' P Q E Hs HP HQ) as (x0 & y0 & x1 & y1 & (Rx0 & _ & ->) & (Rx1 & _ & ->) & Ew).
  assert (Ei : ns = skipn 0 ns) by reflexivity. clear Ei.
  assert (Wn := proj1 (C40_native P' Q' ins' ns) En). destruct Wn as (NP & NQ & Wn).
  assert (Z : map (limb w) column = map toZ ns) by (rewrite <- Ec, map_map; reflexivity).
  rewrite Ew, Wn in Z. destruct P' as [|a0 b0]; [congruence|]. destruct Q' as [|a1 b1]; [congruence|]. cbn [words] in Z.
  apply app_eq_len in Z as [Z0 Z]; [|reflexivity]. apply app_eq_len in Z as [Z1 Z]; [|reflexivity].
  pose proof (coord_rng Fq fq_n a0). pose proof (coord_rng Fq fq_n a1). pose proof fq_254.
  apply point_words_inj in Z0 as [-> _]; [|lia|lia]. apply point_words_inj in Z1 as [-> _]; [|lia|lia]. rewrite (ofZ_toZ Fq a0) in *. rewrite (ofZ_toZ Fq a1) in *.
  split; [|split].
  - destruct (same_x _ _ _ OP' OP) as [->| ->]; [left|right]; reflexivity.
  - destruct (same_x _ _ _ OQ' OQ) as [->| ->]; [left|right]; reflexivity.
  - clear - Z. revert ins' Z. induction cells as [|a l IH]; intros [|i ins'] Z; try discriminate; [reflexivity|]. cbn [map] in *.
    assert (E1 := f_equal (hd 0) Z). assert (E2 := f_equal (@tl _) Z). cbn [hd tl] in E1, E2. apply toZ_inj in E1. f_equal; [exact E1|now apply IH].
Qed.
Print Assumptions C40_bound_up_to_sign.

(** The sign is not bound: a prover whose remainder in [reduce] is the canonical one plus the
    modulus (with the quotient one less). *)
Definition reduce_alt (a : aint Fr) : B Fr (aint Fr) :=
  let d := bn_of a / w_modulus Fq - 1 in
  let rem := bn_of a mod w_modulus Fq + w_modulus Fq in
  let pos := d * bn_limb 0 (w_modulus Fq) + bn_limb 0 rem + limb_modulus * Z.of_nat OVERFLOW_LIMIT in
  let v := (pos - toZ (av_val (l0 a))) / limb_modulus in
  rem <- assign_limbs_of rem ;;
  cells <- one_line_in_range COMMON_RANGE_BITS None [(VU (ofZ d), f0); (VU (ofZ v), f0)] f0 [] f0 ;;
  d <- at_ cells 0 ;;
  v <- at_ cells 1 ;;
  rn <- int_native rem ;;
  an <- int_native a ;;
  one_line_add [(VA (fst an), fopp f1); (VA d, w_native Fr Fq); (VA (fst rn), f1)] f0 ;;;
  one_line_add [(VA d, ofZ (bn_limb 0 (w_modulus Fq))); (VA (l0 (snd rn)), f1); (VA (l0 (snd an)), fopp f1);
                (VA v, fopp (ofZ limb_modulus))] (ofZ (limb_modulus * Z.of_nat OVERFLOW_LIMIT)) ;;;
  ret (snd rn).
Definition tail_alt (p1 p2 : apoint Fr) : B Fr (list (aval Fr)) :=
  assert_false (pt_z p1) ;;;
  assert_false (pt_z p2) ;;;
  x0 <- int_reduce Fq (pt_x p1) ;;
  y0 <- reduce_alt (pt_y p1) ;;
  x1 <- int_reduce Fq (pt_x p2) ;;
  y1 <- int_reduce Fq (pt_y p2) ;;
  b0 <- get_last_bit y0 ;;
  b1 <- get_last_bit y1 ;;
  w0 <- expose_low Fr x0 ;;
  w1 <- expose_high Fr x0 b0 ;;
  w2 <- expose_low Fr x1 ;;
  w3 <- expose_high Fr x1 b1 ;;
  ret [w0; w1; w2; w3].
Definition sample_pair (P Q : point Fq) : B Fr (apoint Fr * apoint Fr) :=
  g <- assign_constant_point (pneg P) ;;
  p1 <- ecc_neg Fq g ;;
  p2 <- assign_constant_point Q ;;
  ret (p1, p2).
Lemma neg_neg : pneg (pneg (G Fq)) = G Fq.
Proof. unfold G. cbn [pneg]. f_equal. Qed.
Lemma sample_represents (w : asg Fr) (P Q : point Fq) : on_curve b3 P -> on_curve b3 Q ->
  snd_ w (sample_pair P Q) (fun p => represents w (fst p) (pneg (pneg P)) /\ represents w (snd p) Q).
Proof.
  intros OP OQ. unfold sample_pair.
  eapply snd_bind; [apply (coords_const Fr Fq fr_n fq_n w (pneg P)); now apply pneg_on|]. intro g.
  eapply snd_bind; [apply (ecc_neg_snd Fr Fq fr_n fq_n w g)|]. intro p1.
  eapply snd_bind; [apply (coords_const Fr Fq fr_n fq_n w Q OQ)|]. intro p2.
  apply snd_ret. intros H3 [K1 K2] H1. cbn [fst snd]. split; apply represents_iff; [|exact H3].
  split; [exact (K2 _ (proj1 H1))|now apply none_ok].
Qed.
Theorem C40_sign_refuted : exists (w : asg Fr) p1 p2 c column c' ns ns',
  synthesize_tail Fr Fq p1 p2 [] c = Some (column, c') /\ sat w c' /\ represents w p1 (G Fq) /\ represents w p2 (G Fq) /\
  final_pair_to_instances Fr Fq (G Fq) (G Fq) [] = Some ns /\ final_pair_to_instances Fr Fq (pneg (G Fq)) (G Fq) [] = Some ns' /\
  ns <> ns' /\ map (fun a => w (av_cell a)) column = ns'.
Proof.
  set (t := fun (w : asg Fr) (r : (apoint Fr * apoint Fr) * list (aval Fr)) =>
    match final_pair_to_instances Fr Fq (pneg (G Fq)) (G Fq) [] with
    | Some ns => (length (snd r) =? length ns)%nat && forallb (fun xy => feqbN (w (av_cell (fst xy))) (snd xy)) (combine (snd r) ns) | None => false end).
  assert (H : @fools Fr _ _ (a <- sample_pair (G Fq) (G Fq) ;; r <- synthesize_tail Fr Fq (fst a) (snd a) [] ;; ret (a, r)) (a <- sample_pair (G Fq) (G Fq) ;; tail_alt (fst a) (snd a)) t = true)
    by (vm_compute; reflexivity).
  destruct (@fools2 Fr _ _ _ (sample_pair (G Fq) (G Fq)) _ _ t H) as ([p1 p2] & c & column & c' & w & E1 & E2 & S & T). clear H. cbn [fst snd] in E2.
  destruct (synthesize_tail_snd Fr Fq fr_n fq_n w p1 p2 [] c column c' E2 S) as [S1 _].
  assert (OG : on_curve b3 (G Fq)) by exact (proj1 (generator_order Fq fq_n)).
  destruct (sample_represents w (G Fq) (G Fq) OG OG (ctx0 Fr) (p1, p2) c E1 S1) as [_ [R1 R2]]. rewrite neg_neg in R1. cbn [fst snd] in R1, R2.
  destruct (final_pair_to_instances Fr Fq (pneg (G Fq)) (G Fq) []) as [ns'|] eqn:En'; [|discriminate].
  destruct (final_pair_to_instances Fr Fq (G Fq) (G Fq) []) as [ns|] eqn:En; [|unfold G in En; discriminate].
  exists w, p1, p2, c, column, c', ns, ns'. repeat (split; [first [assumption|reflexivity]|]). split.
  - intro Ens. rewrite Ens in En. destruct (C40_injective (G Fq) (G Fq) (pneg (G Fq)) (G Fq) [] [] ns' OG OG (pneg_on Fq b3 _ OG) OG En En') as [X _].
    unfold G in X. cbn [pneg] in X. assert (Y := f_equal (fun P => match P with Aff _ y => toZ y | Inf => 0 end) X). cbv beta iota in Y. revert Y. clear.
    intro Y. vm_compute in Y. discriminate.
  - unfold t in T. cbn [snd] in T. apply andb_prop in T as [T1 T2]. apply Nat.eqb_eq in T1. clear - T1 T2. revert ns' T1 T2.
    induction column as [|a l IH]; intros [|n ns] T1 T2; try discriminate; [reflexivity|]. cbn [combine forallb fst snd map] in *.
    apply andb_prop in T2 as [T2 T3]. apply feqbN_ok in T2. injection T1 as T1. f_equal; [exact T2|now apply IH].
Qed.
Print Assumptions C40_sign_refuted.
Example C40_example : exists (w : asg Fr) p1 p2 c column c' cell ns,
  good c /\ has_pt Fr Fq c p1 (ofZ 1) (ofZ 2) false 0 0 /\ has_pt Fr Fq c p2 (ofZ 1) (fopp (ofZ 2)) false 0 0 /\ valid c cell /\
  synthesize_tail Fr Fq p1 p2 [cell] c = Some (column, c') /\ sat w c' /\ represents w p1 (G Fq) /\ represents w p2 (pneg (G Fq)) /\
  final_pair_to_instances Fr Fq (G Fq) (pneg (G Fq)) [ofZ 7] = Some ns /\ map (fun a => w (av_cell a)) column = ns.
Proof.
  assert (OG : on_curve b3 (G Fq)) by exact (proj1 (generator_order Fq fq_n)). assert (ON := pneg_on Fq b3 _ OG).
  destruct (assign_cpl Fr (ctx0 Fr) (ofZ 7) (good_ctx0 Fr)) as (s & c0 & E0 & _ & G0 & Hs & Vs).
  destruct (assign_constant_point_cpl Fr Fq fr_n fq_n c0 (G Fq) G0) as (p1 & c1 & E1 & L1 & G1 & H1 & _).
  destruct (assign_constant_point_cpl Fr Fq fr_n fq_n c1 (pneg (G Fq)) G1) as (p2 & c2 & E2 & L2 & G2 & H2 & _).
  pose proof (has_pt_le Fr Fq _ _ _ _ _ _ _ _ L2 H1) as H1'. pose proof (valid_le Fr _ _ _ L2 (valid_le Fr _ _ _ L1 Hs)) as Hs'.
  unfold G, px, py, pz in H1', H2. cbn [pneg coords fst snd] in H1', H2.
  destruct (final_pair_to_instances Fr Fq (G Fq) (pneg (G Fq)) [ofZ 7]) as [ns|] eqn:En; [|unfold G in En; cbn [pneg final_pair_to_instances] in En; discriminate].
  destruct (C40_circuit_complete c2 p1 p2 _ _ _ _ 0 0 0 0 [s] ns G2 H1' H2 (Forall_cons _ Hs' (Forall_nil _))) as (column & c' & E & S & Ec).
  { cbn [map]. rewrite Vs. exact En. }
  destruct (synthesize_tail_snd Fr Fq fr_n fq_n (adv c') p1 p2 [s] c2 column c' E S) as [S2 _].
  destruct (coords_const Fr Fq fr_n fq_n (adv c') (pneg (G Fq)) ON c1 p2 c2 E2 S2) as [S1 R2].
  destruct (coords_const Fr Fq fr_n fq_n (adv c') (G Fq) OG c0 p1 c1 E1 S1) as [_ R1].
  exists (adv c'), p1, p2, c2, column, c', s, ns. repeat (split; [first [assumption|reflexivity|now apply represents_iff]|]). exact Ec.
Qed.

(** ** C41: the files *)
(** What is written is read back: the file of a list of public inputs is loaded as one
    circuit with one column holding that list. *)
Theorem C41_round_trip (l : list Fr) : load_instances (write_instances l) = Some [[l]].
Proof. rewrite <- (app_nil_r (write_instances l)). apply load_write; [reflexivity|cbn; lia]. Qed.
Print Assumptions C41_round_trip.
(** Conversely a file that is loaded was written from what is loaded, except for fewer than
    32 bytes at its end, which are ignored. *)
Theorem C41_load_sound (buf : list Z) r : Forall byte buf ->
  load_instances buf = Some r <-> exists (l : list Fr) rest, r = [[l]] /\ buf = write_instances l ++ rest /\ (length rest < 32)%nat.
Proof.
  intro Hb. split; [exact (load_inv Fr buf r Hb)|]. intros (l & rest & -> & -> & Hr). apply load_write; [reflexivity|exact Hr].
Qed.
Print Assumptions C41_load_sound.
(** Different lists have different files. *)
Theorem C41_write_injective (l l' : list Fr) : write_instances l = write_instances l' -> l = l'.
Proof. intro E. assert (X := C41_round_trip l). rewrite E, C41_round_trip in X. congruence. Qed.
Print Assumptions C41_write_injective.
(** A truncated file is not noticed. *)
Theorem C41_truncation_refuted : exists (l l' : list Fr) (n : nat), l <> l' /\
  (n < length (write_instances l))%nat /\ load_instances (firstn n (write_instances l)) = Some [[l']].
Proof.
  exists [ofZ 5; ofZ 6], [ofZ 5], 63%nat. split; [discriminate|]. split; [rewrite write_length; cbn; lia|].
  replace (firstn 63 (write_instances [ofZ 5; ofZ 6])) with (write_instances [ofZ 5 : Fr] ++ firstn 31 (to_repr (ofZ 6 : Fr))).
  - apply load_write; [reflexivity|rewrite firstn_length; lia].
  - unfold write_instances. cbn [flat_map]. rewrite !app_nil_r. symmetry. change 63%nat with (32 + 31)%nat.
    rewrite <- (to_repr_length Fr (ofZ 5)). apply firstn_app_2.
Qed.
Print Assumptions C41_truncation_refuted.
(** The final-pair file, read as 32-byte little-endian words, is the array passed to the
    contract: the coordinates followed by the public inputs. *)
Theorem C41_final_pair (P Q : point Fq) (ins : list Fr) :
  length (write_final_pair P Q ins) = (32 * (4 + length ins))%nat /\
  file_words (4 + length ins) (write_final_pair P Q ins) = coords_of P ++ coords_of Q ++ map toZ ins.
Proof.
  split.
  - unfold write_final_pair. rewrite !app_length, !to_repr_length. fold (write_instances ins). rewrite write_length. lia.
  - rewrite final_pair_words by reflexivity. destruct P, Q; reflexivity.
Qed.
Print Assumptions C41_final_pair.
Example C41_example : length (write_instances [ofZ 5 : Fr; ofZ (fr_mod - 1)]) = 64%nat /\ Forall byte (write_instances [ofZ 5 : Fr; ofZ (fr_mod - 1)]).
Proof.
  split; [apply write_length|]. unfold write_instances. cbn [flat_map]. rewrite app_nil_r. apply Forall_app.
  split; apply le_bytes.
Qed.

(** ** C42: which proofs are aggregated

    [keyed name ps]: the proofs [ps] in order, proof [i] with the key made of [name] and
    [i]. *)
(** The circuit and the native computation are run on the same proofs: of every circuit the
    first [nproofs] of its template proofs, in order, each once; the call panics when there
    are fewer.  Missing to the full property: the proofs are the template ones (refuted
    below for the others). *)
Theorem C42_template_partial (F : Fld) (Params Vk : Type) (cs : list (create_proof F Params Vk)) circuit native :
  create_call cs = Some (circuit, native) <->
  Forall (fun c => (c_nproofs c <= length (c_template_proofs c))%nat) cs /\ native = circuit /\
  circuit = map (fun c => mkGiven (c_name c) (c_params c) (c_vk c) (keyed F (c_name c) (firstn (c_nproofs c) (c_template_proofs c)))) cs.
Proof.
  rewrite create_call_spec. assert (B : forallb (fun c => c_nproofs c <=? length (c_template_proofs c))%nat cs = true <->
    Forall (fun c => (c_nproofs c <= length (c_template_proofs c))%nat) cs).
  { rewrite forallb_forall, Forall_forall. split; intros H c Hc; specialize (H c Hc); now apply Nat.leb_le. }
  destruct (forallb _ cs).
  - split; [intros [= <- <-]|intros (_ & -> & ->); reflexivity]. split; [now apply B|]. split; reflexivity.
  - split; [discriminate|]. intros (H & _). apply B in H. discriminate.
Qed.
Print Assumptions C42_template_partial.
(** A request built by [CreateProof::new] is for the proofs it is given. *)
Theorem C42_new (F : Fld) (Params Vk : Type) folder (params : Params) (vk : Vk) instances transcripts circuit native :
  length instances = length transcripts ->
  create_call [create_new folder params vk instances transcripts (length transcripts)] = Some (circuit, native) <->
  native = circuit /\ circuit = [mkGiven folder params vk (keyed F folder (map (fun it => PP (fst it) (snd it)) (combine instances transcripts)))].
Proof.
  intro L. rewrite C42_template_partial. cbn [map create_new c_nproofs c_template_proofs c_name c_params c_vk].
  assert (Lc : length (map (fun it : list (list (list F)) * list Z => PP (fst it) (snd it)) (combine instances transcripts)) = length transcripts)
    by (rewrite map_length, combine_length, L; apply Nat.min_id).
  rewrite firstn_all2 by lia. split; [intros (_ & H); exact H|]. intro H. split; [|exact H].
  apply Forall_cons; [|apply Forall_nil]. cbn [create_new c_nproofs c_template_proofs]. apply Nat.eq_le_incl. symmetry. exact Lc.
Qed.
Print Assumptions C42_new.
(** The field [proofs] of a request is ignored. *)
Theorem C42_proofs_ignored (F : Fld) (Params Vk : Type) (cs cs' : list (create_proof F Params Vk)) :
  Forall2 (fun c c' => exists proofs, c' = mkCreate (c_name c) (c_params c) (c_vk c) (c_template_proofs c) proofs (c_nproofs c)) cs cs' ->
  create_call cs' = create_call cs.
Proof.
  intro H. rewrite !create_call_spec.
  assert (E : forallb (fun c => c_nproofs c <=? length (c_template_proofs c))%nat cs' = forallb (fun c => c_nproofs c <=? length (c_template_proofs c))%nat cs /\
    map (handed F Params Vk) cs' = map (handed F Params Vk) cs).
  { induction H as [|c c' cs cs' [ps ->] H [IH1 IH2]]; [split; reflexivity|]. cbn [forallb map c_nproofs c_template_proofs]. rewrite IH1, IH2. split; reflexivity. }
  destruct E as [-> ->]. reflexivity.
Qed.
Print Assumptions C42_proofs_ignored.
Definition toy_create (proofs : list (proof_pair F101)) : create_proof F101 unit unit :=
  mkCreate "a"%string tt tt [PP [[[f101 1]]] [1]; PP [[[f101 2]]] [2]] proofs 2.
Theorem C42_refuted : exists (F : Fld) (c : create_proof F unit unit) circuit native,
  length (c_proofs c) = c_nproofs c /\ create_call [c] = Some (circuit, native) /\
  circuit <> [mkGiven (c_name c) tt tt (keyed F (c_name c) (c_proofs c))].
Proof.
  exists F101, (toy_create [PP [[[f101 3]]] [3]; PP [[[f101 4]]] [4]]). eexists. eexists. split; [reflexivity|]. split.
  - apply C42_template_partial. split; [|split; reflexivity]. repeat apply Forall_cons; [cbn; lia|apply Forall_nil].
  - cbn. intros [=].
Qed.
Print Assumptions C42_refuted.
(** Two circuits created from the same folder have the same keys for their proofs, which
    C19 and C46 require to differ (see C19_same_circuit_name_refuted for the effect). *)
Theorem C42_folder_keys_collide (F : Fld) (Params Vk : Type) folder (params params' : Params) (vk vk' : Vk) instances transcripts n instances' transcripts' n' circuit native :
  (0 < n)%nat -> (0 < n')%nat ->
  create_call [create_new folder params vk instances transcripts n; create_new folder params' vk' instances' transcripts' n'] = Some (circuit, native) ->
  ~ NoDup (flat_map (fun g : given F Params Vk => map gp_key (g_proofs g)) circuit).
Proof.
  intros Hn Hn' E. apply C42_template_partial in E as (H & _ & ->). cbn [map flat_map g_proofs create_new c_name c_nproofs c_template_proofs app]. rewrite app_nil_r.
  inversion H as [|? ? H1 H2]; subst. inversion H2 as [|? ? H3 _]; subst. cbn [create_new c_nproofs c_template_proofs] in H1, H3.
  assert (K : forall (ps : list (proof_pair F)), (0 < length ps)%nat -> exists r, map gp_key (keyed F folder ps) = proof_key folder 0 :: r).
  { intros [|p ps] L; [cbn in L; lia|]. eexists. reflexivity. }
  destruct (K (firstn n (map (fun it => PP (fst it) (snd it)) (combine instances transcripts)))) as [r ->]; [rewrite firstn_length_le; lia|].
  destruct (K (firstn n' (map (fun it => PP (fst it) (snd it)) (combine instances' transcripts')))) as [r' ->]; [rewrite firstn_length_le; lia|].
  cbn [app]. intro D. inversion D as [|? ? D1 _]; subst. apply D1. apply in_or_app. right. now left.
Qed.
Print Assumptions C42_folder_keys_collide.
(** Key generation lays the circuit out for the first proof of every circuit, repeated, under
    the same name, key and number of proofs as the circuit that is proved. *)
Theorem C42_setup (F : Fld) (Params Vk : Type) (ss : list (setup F Params Vk)) vcs :
  setup_call ss = Some vcs <->
  Forall (fun s => s_nproofs s = O \/ s_proofs s <> []) ss /\
  vcs = map (fun s => mkVC (s_name s) (s_params s) (s_vk s) (match s_proofs s with [] => [] | p :: _ => repeat p (s_nproofs s) end) (s_nproofs s)) ss.
Proof.
  unfold setup_call, new_verify_circuit_info. revert vcs. induction ss as [|s ss IH]; intro vcs.
  - cbn. split; [intros [= <-]; split; [apply Forall_nil|reflexivity]|intros [_ ->]; reflexivity].
  - cbn [mapM]. rewrite info_true. destruct (s_nproofs s) as [|n] eqn:En.
    + destruct (mapM (circuit_info true) ss) as [os|]; cbn [map] in *.
      * split; [intros [= <-]|].
        -- destruct (proj1 (IH _) eq_refl) as [H1 H2]. split; [apply Forall_cons; [now left|exact H1]|]. cbn [map]. rewrite H2, En. unfold circuit_of. cbn. destruct (s_proofs s); reflexivity.
        -- intros [H ->]. inversion H as [|? ? _ H1]; subst. destruct (IH (map circuit_of os)) as [IH1 _]. destruct (IH1 eq_refl) as [_ ->].
           rewrite En. unfold circuit_of. cbn. destruct (s_proofs s); reflexivity.
      * split; [discriminate|]. intros [H ->]. inversion H as [|? ? _ H1]; subst. discriminate (proj2 (IH _) (conj H1 eq_refl)).
    + destruct (s_proofs s) as [|p ps] eqn:Ep.
      * split; [discriminate|]. intros [H _]. inversion H as [|? ? [H1|H1] _]; subst; congruence.
      * assert (R : circuit_of (mkOut (s_name s) (s_params s) (s_vk s) (repeat (pp_instances p) (S n)) (repeat (pp_transcript p) (S n)) (S n)) =
          mkVC (s_name s) (s_params s) (s_vk s) (repeat p (S n)) (S n)).
        { unfold circuit_of. cbn [o_name o_params o_vk o_instances o_proofs o_nproofs]. f_equal.
          generalize (S n). clear. intro m. induction m as [|m IHm]; [reflexivity|]. cbn [repeat combine map fst snd]. rewrite IHm. destruct p. reflexivity. }
        destruct (mapM (circuit_info true) ss) as [os|]; cbn [map] in *.
        -- rewrite R. split; [intros [= <-]|].
           ++ destruct (proj1 (IH _) eq_refl) as [H1 H2]. split; [apply Forall_cons; [right; congruence|exact H1]|]. rewrite H2, En, Ep. reflexivity.
           ++ intros [H ->]. inversion H as [|? ? _ H1]; subst. destruct (proj1 (IH _) eq_refl) as [_ ->]. rewrite En, Ep. reflexivity.
        -- split; [discriminate|]. intros [H ->]. inversion H as [|? ? _ H1]; subst. discriminate (proj2 (IH _) (conj H1 eq_refl)).
Qed.
Print Assumptions C42_setup.
Example C42_example : exists circuit native, create_call [toy_create []; toy_create []] = Some (circuit, native) /\
  map (fun g => map gp_key (g_proofs g)) circuit = [["a_p0"%string; "a_p1"%string]; ["a_p0"%string; "a_p1"%string]].
Proof.
  eexists. eexists. split.
  - apply C42_template_partial. split; [|split; reflexivity]. repeat (apply Forall_cons; [cbn; lia|]). apply Forall_nil.
  - reflexivity.
Qed.

(** ** C44: the layout of the public inputs *)
Section Layout.
  Variables (S W : PF) (M : Mod S).
  Variables (PT SC : nat).
  Variable pt_decode : list Z -> option M.
  Variable sc_decode : list Z -> option S.
  Variable St : Type.
  Variable upd_pt : St -> M -> St.
  Variable upd_sc : St -> S -> St.
  Variable sqz : St -> option (S * St).
  Variable st0 : St.
  Variable affine : M -> point W.
  Local Notation create := (create_instances S W M PT SC pt_decode sc_decode St upd_pt upd_sc sqz st0 affine).

  (** Specification: the public inputs of a request, by circuit, proof, circuit instance,
      column and row. *)
  Definition flat_inputs (cs : list (create_proof S (kzg S M) (key S M))) : list S :=
    flat_map (fun c => flat_map (fun p => flat_map (fun columns => flat_map (fun column => column) columns) (pp_instances p))
                         (firstn (c_nproofs c) (c_template_proofs c))) cs.
  Lemma flat_map_id {A} (l : list (list A)) : flat_map (fun x => x) l = concat l.
  Proof. induction l; cbn; congruence. Qed.
  Lemma flat_two {A} (l : list (list (list A))) : flat_map (fun columns => flat_map (fun column => column) columns) l = concat (concat l).
  Proof. induction l as [|x l IH]; [reflexivity|]. cbn [flat_map concat]. now rewrite IH, flat_map_id, concat_app. Qed.
  Lemma agg_inputs (cs : list (circuit_proof S M St)) h rs h' :
    aggregate_circuits S M PT SC pt_decode sc_decode St upd_pt upd_sc sqz cs h = Some (rs, h') ->
    concat (map (fun r => fst (fst (fst r))) rs) = flat_map (fun c => flat_map (fun d => concat (concat (pd_instances d))) (cp_proofs c)) cs.
  Proof.
    revert h rs h'. induction cs as [|c cs IH]; intros h rs h' E; cbn in E; [now injection E as <- _|].
    destruct (aggregate_circuit _ _ _ _ _ _ _ _ _ _ h c) as [[rs1 h1]|] eqn:E1; [|discriminate].
    destruct (aggregate_circuits _ _ _ _ _ _ _ _ _ _ cs h1) as [[rs2 h2]|] eqn:E2; [|discriminate]. injection E as <- _.
    rewrite map_app, concat_app, (IH _ _ _ E2). cbn [flat_map]. f_equal. unfold aggregate_circuit in E1.
    destruct (mapM _ (cp_proofs c)) as [rs'|] eqn:E3; [|discriminate]. destruct (absorb_transcripts _ _ _ _ _ _) as [h3|]; [|discriminate]. injection E1 as -> _.
    apply mapM_Forall2 in E3. induction E3 as [|d r ds rs H _ IHr]; [reflexivity|]. cbn [map concat flat_map]. rewrite IHr. f_equal.
    unfold aggregate_proof in H. destruct (assign_instance_commitment _ _ _ _ _) as [[ic1 ic2]|] eqn:E1; [|discriminate].
    destruct (verify_single_proof_no_eval _ _ _ _ _ _ _ _ _ _ _ _ _ _) as [[pc t]|]; [|discriminate]. injection H as <-. cbn [fst].
    unfold assign_instance_commitment in E1. destruct (forallb _ _); [|discriminate]. destruct (forallb _ _); [|discriminate].
    destruct (mapM _ _); [|discriminate]. now injection E1 as <- _.
  Qed.
  (** The public inputs returned are the four numbers of the final pair followed by the
      inputs of the proofs. *)
  Theorem C44_layout cs circuit P Q ins column : create cs = Some (circuit, (P, Q, ins), column) ->
    ins = flat_inputs cs /\ final_pair_to_instances S W P Q (flat_inputs cs) = Some column /\
    exists a b c d, column = a :: b :: c :: d :: flat_inputs cs.
  Proof.
    intro E. unfold create_instances in E. destruct (create_call cs) as [[ci na]|] eqn:E1; [|discriminate].
    destruct (calc_verify_circuit_final_pair _ _ _ _ _ _ _ _ _ _ _ _ _ na) as [[[P' Q'] ins']|] eqn:E2; [|discriminate].
    destruct (final_pair_to_instances S W P' Q' ins') as [col|] eqn:E3; [|discriminate]. injection E as -> -> -> -> ->.
    apply C42_template_partial in E1 as (Hn & -> & Ec).
    unfold calc_verify_circuit_final_pair, verify_aggregation_proofs_in_chip in E2.
    destruct (aggregate_circuits _ _ _ _ _ _ _ _ _ _ _ _) as [[rs h']|] eqn:E4; [|discriminate].
    destruct (sqz h') as [[ch h2]|]; [|discriminate]. destruct (aggregate _ _) as [agg|]; [|discriminate].
    destruct (nth_error _ 0) as [c0|]; [|discriminate]. destruct (evaluate_multiopen_proof _ _) as [[wx wg]|]; [|discriminate].
    injection E2 as _ _ E2. apply agg_inputs in E4. rewrite E4 in E2.
    assert (Ei : ins = flat_inputs cs).
    { rewrite <- E2, Ec. unfold flat_inputs. clear. induction cs as [|c cs IH]; [reflexivity|]. cbn [map flat_map]. rewrite IH. f_equal.
      cbn [circuit_proof_of cp_proofs g_proofs]. generalize (firstn (c_nproofs c) (c_template_proofs c)). intro ps. unfold keyed.
      generalize 0%nat. induction ps as [|p ps IHp]; intro k; [reflexivity|]. cbn [length seq combine map flat_map fst snd pd_instances gp_instances].
      rewrite (IHp (Datatypes.S k)). now rewrite flat_two. }
    rewrite <- Ei. split; [reflexivity|]. split; [exact E3|]. destruct P, Q; try discriminate. cbn [final_pair_to_instances] in E3. injection E3 as <-.
    do 4 eexists. reflexivity.
  Qed.
  (** Its length is the one the SDK computes from the number of proofs and the number of
      public inputs of a proof of every circuit. *)
  Theorem C44_size cs circuit fp column (sizes : list nat) : create cs = Some (circuit, fp, column) ->
    Forall2 (fun c size => Forall (fun p => length (concat (concat (pp_instances p))) = size) (c_template_proofs c)) cs sizes ->
    length column = compute_verify_public_input_size (combine (map c_nproofs cs) sizes).
  Proof.
    intros E H. destruct fp as [[P Q] ins].
    assert (E' := E). unfold create_instances in E'. destruct (create_call cs) as [[ci na]|] eqn:E1; [|discriminate]. clear E'.
    apply C42_template_partial in E1 as (Hn & _ & _).
    apply C44_layout in E as (_ & _ & a & b & c & d & ->). cbn [length]. unfold compute_verify_public_input_size.
    assert (G : forall n, fold_left (fun n c => (n + fst c * snd c)%nat) (combine (map c_nproofs cs) sizes) n = (n + length (flat_inputs cs))%nat).
    { clear - H Hn. unfold flat_inputs. induction H as [|c s cs ss Hc H IH]; intro n; [cbn; lia|]. inversion Hn as [|? ? Hn1 Hn2]; subst.
      cbn [map combine fold_left fst snd flat_map]. rewrite (IH Hn2), app_length. clear IH Hn2 H Hn. rewrite Nat.add_assoc. f_equal. f_equal.
      revert Hn1 Hc. generalize (c_nproofs c) (c_template_proofs c). clear. intros k ps. revert k. induction ps as [|p ps IH]; intros k Hk Hc; [cbn in Hk; replace k with 0%nat by lia; reflexivity|]. destruct k as [|k]; [reflexivity|].
      cbn [firstn flat_map]. rewrite app_length. inversion Hc as [|? ? H1 H2]; subst. rewrite flat_two. rewrite <- (IH k); [cbn [Nat.mul]; reflexivity|cbn in Hk; lia|exact H2]. }
    rewrite G. reflexivity.
  Qed.
End Layout.
Print Assumptions C44_layout.
Print Assumptions C44_size.
(** The circuit's cells: four, then the cells of the inputs (C40_circuit_sound_partial gives
    the contents of the four). *)
Theorem C44_circuit_layout p1 p2 ins c column c' : synthesize_tail Fr Fq p1 p2 ins c = Some (column, c') ->
  exists a b d e, column = a :: b :: d :: e :: ins.
Proof. exact (synthesize_tail_shape Fr Fq p1 p2 ins c column c'). Qed.
Print Assumptions C44_circuit_layout.
Definition toy_request name (instances : list (list (list F101))) (bytes : list (list Z)) : create_proof P101 (kzg P101 (self_mod F101)) (key P101 (self_mod F101)) :=
  create_new name (mkKzg P101 (self_mod F101) [f101 11; f101 12; f101 13; f101 14] (f101 1)) (toy_vk, 1%nat) (map (fun i => [i]) instances) bytes (length bytes).
Definition toy_requests := [toy_request "a" [[[f101 3; f101 4]]; [[f101 5; f101 8]]] [toy_bytes; rev toy_bytes]; toy_request "b" [[[f101 9]]] [toy_bytes]].
Notation toy_create_instances := (create_instances P101 P101 (self_mod F101) 1 1 byte_elem byte_elem
  (sponge_state F101) (sponge_upd_pt F101 (self_mod F101) byte_hash) (sponge_upd_sc F101) (sponge_sqz F101 f101_spec 2) (mkP (A := mock_chip F101) f101_init []) (fun m => Aff m m)).
Example C44_example : exists circuit fp column, toy_create_instances toy_requests = Some (circuit, fp, column) /\
  skipn 4 column = [f101 3; f101 4; f101 5; f101 8; f101 9] /\ compute_verify_public_input_size [(2, 2); (1, 1)]%nat = 9%nat /\
  Forall2 (fun (c : create_proof P101 (kzg P101 (self_mod F101)) (key P101 (self_mod F101))) size =>
    Forall (fun p => length (concat (concat (pp_instances p))) = size) (c_template_proofs c)) toy_requests [2; 1]%nat.
Proof.
  assert (E : match toy_create_instances toy_requests with
    Some (_, _, column) => Properties_Reader.same (skipn 4 column) [f101 3; f101 4; f101 5; f101 8; f101 9] | None => false end = true) by (vm_compute; reflexivity).
  destruct (toy_create_instances toy_requests) as [[[circuit fp] column]|]; [|discriminate]. exists circuit, fp, column. split; [reflexivity|].
  split; [now apply Properties_Reader.same_eq|]. split; [reflexivity|]. repeat constructor.
Qed.

(** ** C48: the files of the sample circuits

    Missing to the full property: names that end in a digit (refuted below). *)
Theorem C48_file_names_partial name index name' index' : ends_digit name = false -> ends_digit name' = false ->
  (proof_file name index = proof_file name' index' -> name = name' /\ index = index') /\
  (instance_file name index = instance_file name' index' -> name = name' /\ index = index') /\
  proof_file name index <> instance_file name' index'.
Proof.
  intros H H'. split; [|split].
  - exact (file_inj _ name index name' index' H H').
  - exact (file_inj _ name index name' index' H H').
  - unfold proof_file, instance_file. cbn. discriminate.
Qed.
Print Assumptions C48_file_names_partial.
Theorem C48_file_names_refuted : exists name index name' index', name <> name' /\ index <> index' /\
  proof_file name index = proof_file name' index' /\ instance_file name index = instance_file name' index'.
Proof. exists "circuit"%string, 10%nat, "circuit1"%string, 0%nat. repeat split; try discriminate; vm_compute; reflexivity. Qed.
Print Assumptions C48_file_names_refuted.
Example C48_example : ends_digit "mul_circuit" = false /\ ends_digit "add_2_circuit" = false.
Proof. split; reflexivity. Qed.
