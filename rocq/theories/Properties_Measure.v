(** Property C54: the measuring pass takes at least as many rows as the real one.

    halo2's floor planner first runs [synthesize] to learn how many rows each region takes,
    and then places the regions one after the other by what it has learnt.  In the first pass
    the circuit takes a shortcut through [multi_exp]: it lays out two rounds and skips as many
    rows for each of the others (Measure.v).  Were that too few, the second region would be
    placed on top of the end of the first. *)
From Coq Require Import String ZArith NArith Arith Lia List Bool.
From Verif Require Import Util Algebra ListFacts Schema Plonk Poseidon PoseidonSpec BuildParams.
From Verif Require Import PField Gate GateProofs GateExtra Integer Curve Ecc Calls VerifierCalls VerifierCallsTop VerifyCircuit CircuitRun CircuitRunSpec CallOrder Shape ShapeRun
  Measure MeasureForms MeasureProofs CallExact Properties_Layout.
Import ListNotations.

(** ** One [multi_exp]

    The points come with overflow counts of zero and without a cached slope, as points do that
    were read from a proof, are constants, or were normalised. *)
Definition fresh_point {N : PF} (p : apoint N) : Prop := overflows (pt_x p) = 0 /\ overflows (pt_y p) = 0 /\ pt_c p = None.
Lemma fresh_plain {N : PF} (l : list (apoint N)) : Forall fresh_point l -> Forall (plain N) l.
Proof. apply Forall_impl. intros p (X & Y & C). constructor; cbn; [exact X|exact Y|now rewrite C]. Qed.
(** Two passes give the chip cells at different places, but points of the same layout. *)
Definition same_form {N : PF} (a b : aint N) : Prop := overflows a = overflows b /\ (native_of a = None <-> native_of b = None).
Definition same_layout {N : PF} (p q : apoint N) : Prop := same_form (pt_x p) (pt_x q) /\ same_form (pt_y p) (pt_y q).
Lemma form_related {N : PF} (a b : aint N) : same_form a b -> RI N (fun _ _ => True) a b.
Proof. intros [O E]. constructor; try exact I; [|exact O]. destruct (native_of a), (native_of b); try exact I; destruct E as [E1 E2]; [discriminate (E2 eq_refl)|discriminate (E1 eq_refl)]. Qed.
Lemma layouts_related {N : PF} (ps qs : list (apoint N)) : Forall2 same_layout ps qs -> Forall fresh_point ps -> Forall fresh_point qs -> Forall2 (RT N (fun _ _ => True)) ps qs.
Proof.
  induction 1 as [|p q ps qs [HX HY] _ IH]; intros Hp Hq; constructor; [|apply IH; [exact (Forall_inv_tail Hp)|exact (Forall_inv_tail Hq)]].
  apply Forall_inv in Hp, Hq. destruct Hp as (_ & _ & Cp), Hq as (_ & _ & Cq). constructor; [apply form_related, HX|apply form_related, HY|exact I|rewrite Cp, Cq; exact I].
Qed.
Lemma any_related {A} (l l' : list A) : length l = length l' -> Forall2 (fun _ _ => True) l l'.
Proof. revert l'. induction l as [|a l IH]; intros [|b l'] E; try discriminate; constructor; [exact I|apply IH; now injection E]. Qed.
Section Chip.
  Variables N W : PF.
  Theorem C54_multi_exp_not_fewer (ps qs : list (apoint N)) ss ts c d r c' q d' : Forall fresh_point ps -> Forall fresh_point qs -> Forall2 same_layout ps qs -> length ss = length ts ->
    offset c <= offset d -> shamir W ps ss c = Some (r, c') -> shamir_measured W qs ts d = Some (q, d') -> offset c' <= offset d'.
  Proof.
    intros Hp Hq HL Hs Hcd E E'.
    exact (proj1 (shamir_rows N W le (fun a b n H => proj1 (Nat.add_le_mono_r a b n) H) true (fun _ a b n H => Nat.le_trans _ _ _ H (Nat.le_add_r b n))
      ps qs ss ts (layouts_related _ _ HL Hp Hq) (fresh_plain _ Hp) (fresh_plain _ Hq) (any_related _ _ Hs) (fun _ => eq_refl) c d Hcd _ _ _ _ E E')).
  Qed.
  (** And exactly as many for two points or more. *)
  Theorem C54_multi_exp_exact (ps qs : list (apoint N)) ss ts c d r c' q d' : Forall fresh_point ps -> Forall fresh_point qs -> Forall2 same_layout ps qs -> length ss = length ts ->
    length ps <> 1 -> offset c = offset d -> shamir W ps ss c = Some (r, c') -> shamir_measured W qs ts d = Some (q, d') -> offset c' = offset d'.
  Proof.
    intros Hp Hq HL Hs H1 Hcd E E'.
    exact (proj1 (shamir_rows N W eq (fun a b n H => f_equal (fun x => x + n) H) false (fun H => match Bool.diff_false_true H with end)
      ps qs ss ts (layouts_related _ _ HL Hp Hq) (fresh_plain _ Hp) (fresh_plain _ Hq) (any_related _ _ Hs) (fun H => False_ind _ (H1 H)) c d Hcd _ _ _ _ E E')).
  Qed.
End Chip.
Print Assumptions C54_multi_exp_not_fewer.
Print Assumptions C54_multi_exp_exact.

(** ** The circuit *)
Section C54.
  (** Any fields, any group of commitments, any encodings, any constants of the sponge. *)
  Variables N W : PF.
  Variable M : Mod N.
  Variable affine : M -> point W.
  Variables (PT SC : nat).
  Variable pt_decode : list Z -> option M.
  Variable sc_decode : list Z -> option N.
  Variable sp : pspec N.
  Variable RATE : nat.
  Variable init : list N.
  Variable generator : M.
  Notation given := (given N (kzg N M) (key N M)).
  Notation first_region := (x_verify N W M affine PT SC pt_decode sc_decode sp RATE init generator).
  Notation first_region_measured := (m_verify N W M affine PT SC pt_decode sc_decode sp RATE init generator).
  Notation calls_of nw gs := (c_verify_aggregation_proofs_in_chip N M 0 (hcircuits_of N M unit nw 1 (given_circuits N M gs)) 0).

  (** The proofs [gs] to be aggregated and those [gs'] of the measuring pass, for the same
      circuits: the first region of the real pass has at most the rows that were counted. *)
  Theorem C54_never_too_few nw (gs gs' : list given) coherent r c r' c' : Forall2 same_but_proofs gs gs' ->
    first_region nw gs coherent (ctx0 N) = Some (r, c) -> first_region_measured nw gs' coherent (ctx0 N) = Some (r', c') -> offset c <= offset c'.
  Proof.
    intros H E E'.
    exact (proj1 (m_verify_shp N W M affine PT SC pt_decode sc_decode sp RATE init generator le (fun a b n H => proj1 (Nat.add_le_mono_r a b n) H) true
      (fun _ a b n H => Nat.le_trans _ _ _ H (Nat.le_add_r b n)) nw gs gs' coherent (same_calls N M nw gs gs' H) (same_bytes_length N M gs gs' H)
      (fun r0 cs n Ec => generated_sums_exact N M _ _ r0 cs n Ec) (ctx0 N) (ctx0 N) (le_n 0) _ _ _ _ E E')).
  Qed.
  (** If no sum of the verification is of a single point, exactly that many. *)
  Lemma no_single (cs : list (call N M)) : forall ks, sums_exact N M true ks cs = true -> (forall ps ss, In (CMultiExp ps ss) cs -> length ps <> 1) -> sums_exact N M false ks cs = true.
  Proof.
    induction cs as [|c cs IH]; intros ks E H; [reflexivity|]. cbn [sums_exact] in *. apply andb_true_iff in E. destruct E as [E1 E2].
    rewrite (IH _ E2) by (intros ps ss Hi; apply (H ps ss); right; exact Hi). rewrite andb_true_r. destruct c; try reflexivity. apply andb_true_iff in E1. rewrite (proj1 E1). cbn [andb orb].
    apply negb_true_iff, Nat.eqb_neq. apply (H ps ss). left. reflexivity.
  Qed.
  Theorem C54_exact nw (gs gs' : list given) coherent r c r' c' : Forall2 same_but_proofs gs gs' ->
    (forall o calls n ps ss, calls_of nw gs = Some (o, calls, n) -> In (CMultiExp ps ss) calls -> length ps <> 1) ->
    first_region nw gs coherent (ctx0 N) = Some (r, c) -> first_region_measured nw gs' coherent (ctx0 N) = Some (r', c') -> offset c = offset c'.
  Proof.
    intros H Hs E E'.
    exact (proj1 (m_verify_shp N W M affine PT SC pt_decode sc_decode sp RATE init generator eq (fun a b n H => f_equal (fun x => x + n) H) false
      (fun H => match Bool.diff_false_true H with end) nw gs gs' coherent (same_calls N M nw gs gs' H) (same_bytes_length N M gs gs' H)
      (fun r0 cs n Ec => no_single cs [] (generated_sums_exact N M _ _ r0 cs n Ec) (fun ps ss => Hs r0 cs n ps ss Ec)) (ctx0 N) (ctx0 N) eq_refl _ _ _ _ E E')).
  Qed.
  (** The second region, which ties the results to the public inputs, starts from the results
      of the first.  These have the same layout in both passes, … *)
  Lemma related_form (a b : aint N) : RI N (fun _ _ => True) a b -> same_form a b.
  Proof. intros [_ _ _ _ H O]. split; [exact O|]. destruct (native_of a), (native_of b); try contradiction; split; intro; congruence. Qed.
  Theorem C54_results_layout nw (gs gs' : list given) coherent p q i ns c p' q' i' ns' c' : Forall2 same_but_proofs gs gs' ->
    first_region nw gs coherent (ctx0 N) = Some ((p, q, i, ns), c) -> first_region_measured nw gs' coherent (ctx0 N) = Some ((p', q', i', ns'), c') ->
    same_layout p p' /\ same_layout q q' /\ length i = length i'.
  Proof.
    intros H E E'.
    pose proof (proj2 (m_verify_shp N W M affine PT SC pt_decode sc_decode sp RATE init generator le (fun a b n H => proj1 (Nat.add_le_mono_r a b n) H) true
      (fun _ a b n H => Nat.le_trans _ _ _ H (Nat.le_add_r b n)) nw gs gs' coherent (same_calls N M nw gs gs' H) (same_bytes_length N M gs gs' H)
      (fun r0 cs n Ec => generated_sums_exact N M _ _ r0 cs n Ec) (ctx0 N) (ctx0 N) (le_n 0) _ _ _ _ E E')) as ((HP & HQ) & HI). cbn [fst snd] in HP, HQ, HI.
    split; [split; apply related_form; [exact (rtx _ _ _ _ HP)|exact (rty _ _ _ _ HP)]|]. split; [split; apply related_form; [exact (rtx _ _ _ _ HQ)|exact (rty _ _ _ _ HQ)]|].
    clear - HI. induction HI; cbn; congruence.
  Qed.
  (** … and the region takes the same number of rows for any two pairs of points of the same
      layout, and gives the same number of public inputs. *)
  Definition uncached (p : apoint N) : apoint N := AP (pt_x p) (pt_y p) (pt_z p) None.
  Lemma tail_uncached p q i : synthesize_tail N W p q i = synthesize_tail N W (uncached p) (uncached q) i.
  Proof. reflexivity. Qed.
  Theorem C54_second_region p q i p' q' i' (d d' : ctx N) pub e pub' e' : same_layout p p' -> same_layout q q' -> length i = length i' -> offset d = offset d' ->
    synthesize_tail N W p q i d = Some (pub, e) -> synthesize_tail N W p' q' i' d' = Some (pub', e') -> offset e = offset e' /\ length pub = length pub'.
  Proof.
    intros [P1 P2] [Q1 Q2] HI Hd T T'. rewrite tail_uncached in T, T'.
    assert (shift : forall a b n, a = b -> a + n = b + n) by (intros a b n ->; reflexivity).
    destruct (tail_shp N W (@RP N eq) (fun _ _ => True) (rows_line N eq shift) (rows_rline N eq shift) (uncached p) (uncached p') (uncached q) (uncached q') i i'
      (mkRT N (fun _ _ => True) (uncached p) (uncached p') (form_related _ _ P1) (form_related _ _ P2) I I) (mkRT N (fun _ _ => True) (uncached q) (uncached q') (form_related _ _ Q1) (form_related _ _ Q2) I I) (any_related _ _ HI) d d' Hd _ _ _ _ T T') as [A B].
    split; [exact A|]. clear - B. induction B; cbn; congruence.
  Qed.
End C54.
Print Assumptions C54_never_too_few.
Print Assumptions C54_exact.
Print Assumptions C54_results_layout.
Print Assumptions C54_second_region.

(** ** The measuring pass ends, over BN254

    The two theorems on rows speak of passes that end.  The real pass does if it meets no
    panic in the doublings (C16, C52).  The measuring pass goes through the first two rounds
    of the real one, and then once through each doubling and addition of 62 rounds that all
    add the first sum again: the chip is left with 17^62 times the sum for the two leading
    digits. *)
From Verif Require Import GateOps Bn254 Bn254Prime CurveAssoc Bn254Curve EccSound EccScalar EccMul EccComplete EccHistory CurveOrder GeneratorOrder EccMulComplete EccHonest EccLucky CurveMod CircuitSponge
  Properties_Integer Properties_Ecc Properties_EccHonest Properties_Circuit CircuitHonest CircuitHonestTop ExponentRun Properties_Calls Properties_CircuitRun Properties_CircuitComplete MeasureHonest MeasureSingle VerifyCircuitProofs.
Local Notation fr_n := (eq_refl : pf_n Fr = fr_mod).
Local Notation fq_n := (eq_refl : pf_n Fq = fq_mod).
Local Notation first_digits := (Properties_EccHonest.leading 2).
Definition measured_tangents (D : list (N * point Fq)) : Prop :=
  shamir_tangents D /\ forall k i, k < 62 -> (i < 4)%N -> tangent (Curve.smul (2 ^ i * 17 ^ N.of_nat k) (combination first_digits D)).
Lemma held_combination (n : N) D r (c : ctx Fr) : hp Fr Fq c r (Curve.smul n (wsum Fq (lead 2) D)) -> represents (adv c) r (Curve.smul n (combination first_digits D)).
Proof. intro Hr. rewrite comb_sum in Hr. exact (prover_represents _ _ _ Hr). Qed.
Theorem C54_multi_exp_measured_partial (c : ctx Fr) points scalars (Ps : list (point Fq)) : good c -> Forall2 (prover_has c) points Ps -> Forall (valid c) scalars ->
  length scalars = length points -> measured_tangents (combine (map value scalars) Ps) ->
  exists r c', shamir_measured Fq points scalars c = Some (r, c') /\ sat (adv c') c' /\
    represents (adv c') r (Curve.smul (17 ^ 62) (combination first_digits (combine (map value scalars) Ps))).
Proof.
  intros Gc Hp Hs Hl [HT HM].
  assert (O : Forall (fun kP => on_curve b3 (snd kP)) (combine (map value scalars) Ps)).
  { clear - Hp. revert scalars. induction Hp as [|a P points Ps H _ IH]; intros [|s scalars]; cbn [map combine]; constructor; [exact (hp_on Fr Fq c a P H)|apply IH]. }
  apply shamir_tangents_slucky in HT; [|exact O].
  revert HT HM O. change value with (scalar_of_cell Fr). set (D := combine (map (scalar_of_cell Fr) scalars) Ps). intros HT HM O.
  assert (HL : mlucky Fq D).
  { split; [exact HT|]. intros k i Hk Hi. specialize (HM k i Hk Hi). rewrite comb_sum. change (lead 2) with first_digits. apply tangent_fine; [|exact HM]. apply (son Fq). rewrite <- comb_sum. exact (wsum_on Fq _ _ O). }
  destruct (shamir_measured_hp Fr Fq fr_n fq_n c points scalars Ps Hp Hs Hl HL Gc) as (r & c' & E & L & G' & Hr). clear - E G' Hr.
  rewrite mvalue_eq in Hr. exists r, c'. split; [exact E|]. split; [exact (good_sat Fr c' G')|exact (held_combination _ _ _ _ Hr)].
Qed.
Print Assumptions C54_multi_exp_measured_partial.

(** ** Cases

    One [multi_exp]: 300·G + 17·2G, both passes from the same place. *)
Lemma assigned_uncached (N W : PF) (Q : point W) : post N (assign_point Q) (fun p => pt_c p = None).
Proof.
  unfold assign_point. destruct (coords Q) as [[x y] z]. do 4 (eapply post_bind; [apply post_any|intros ? _]). eapply post_bind; [apply post_any|intros [? ?] _]. eapply post_bind; [apply post_any|intros [? ?] _].
  eapply post_bind; [apply post_any|intros [[? ?] ?] _]. do 4 (eapply post_bind; [apply post_any|intros ? _]). apply post_ret. reflexivity.
Qed.
Lemma assigned_fresh (N W : PF) (Q : point W) c a c' : assign_point Q c = Some (a, c') -> fresh_point (N := N) a.
Proof. intro E. destruct (plain_assign N W Q c a c' E) as [HX HY _]. split; [exact HX|]. split; [exact HY|]. exact (assigned_uncached N W Q c a c' E). Qed.
Lemma same_self {N : PF} (p : apoint N) : same_layout p p.
Proof. split; split; reflexivity. Qed.
Lemma small_measured (D : list (N * point Fq)) : Forall (fun kP => (fst kP < 16 ^ 62)%N) D -> combination first_digits D = Inf.
Proof.
  intro H. induction H as [|[k P] D H _ IH]; [reflexivity|]. unfold combination in *. cbn [map fold_right fst snd] in *. rewrite IH.
  replace (first_digits k) with 0%N; [reflexivity|]. symmetry. apply N.div_small. exact H.
Qed.
Lemma small_tangents (D : list (N * point Fq)) : shamir_tangents D -> Forall (fun kP => (fst kP < 16 ^ 62)%N) D -> measured_tangents D.
Proof. intros H S. split; [exact H|]. intros k i _ _. rewrite (small_measured D S), (smul_inf Fq). now apply tangent_fine. Qed.
Example C54_example_multi_exp : exists a1 a2 s1 s2 c r c' q d', good c /\ prover_has c a1 (Curve.smul 1 (G Fq)) /\ prover_has c a2 (Curve.smul 2 (G Fq)) /\
  valid c s1 /\ valid c s2 /\ value s1 = 300%N /\ value s2 = 17%N /\ measured_tangents [(300%N, Curve.smul 1 (G Fq)); (17%N, Curve.smul 2 (G Fq))] /\
  Forall fresh_point [a1; a2] /\ Forall2 same_layout [a1; a2] [a1; a2] /\
  shamir Fq [a1; a2] [s1; s2] c = Some (r, c') /\ shamir_measured Fq [a1; a2] [s1; s2] c = Some (q, d') /\ offset c' = offset d'.
Proof.
  destruct (assign_cpl Fr (ctx0 Fr) (ofZ 300) (good_ctx0 Fr)) as (s1 & c0 & _ & _ & G0 & Hs1 & Vs1).
  destruct (assign_cpl Fr c0 (ofZ 17) G0) as (s2 & c1 & _ & L1 & G1 & Hs2 & Vs2).
  destruct (assign_point_hp Fr Fq fr_n fq_n c1 (Curve.smul 1 (G Fq)) (son Fq 1 _ OG) G1) as (a1 & c2 & F1 & L2 & G2 & Ha1).
  destruct (assign_point_hp Fr Fq fr_n fq_n c2 (Curve.smul 2 (G Fq)) (son Fq 2 _ OG) G2) as (a2 & c3 & F2 & L3 & G3 & Ha2).
  assert (V1 : value s1 = 300%N) by (unfold value; rewrite Vs1; vm_compute; reflexivity).
  assert (V2 : value s2 = 17%N) by (unfold value; rewrite Vs2; vm_compute; reflexivity).
  set (E := [(300, 1); (17, 2)]%N). assert (HT : shamir_tangents (pts Fq E)).
  { apply slucky_shamir_tangents; [apply pts_on|]. apply (sluckyb_ok Fq fq_n ex_multiples E ex_fine_fq). vm_compute. reflexivity. }
  assert (HM : measured_tangents (pts Fq E)).
  { apply small_tangents; [exact HT|]. apply Forall_cons; [reflexivity|]. apply Forall_cons; [reflexivity|]. apply Forall_nil. }
  pose proof (ctx_le_trans Fr _ _ _ L2 L3) as L13. pose proof (ctx_le_trans Fr _ _ _ L1 L13) as L03.
  pose proof (valid_le Fr c0 c3 s1 L03 Hs1) as Hs1'. pose proof (valid_le Fr c1 c3 s2 L13 Hs2) as Hs2'. pose proof (hp_le Fr Fq _ _ _ _ L3 Ha1) as Ha1'.
  assert (ED : combine (map value [s1; s2]) [Curve.smul 1 (G Fq); Curve.smul 2 (G Fq)] = pts Fq E) by (cbn [map combine]; rewrite V1, V2; reflexivity).
  assert (HP : Forall2 (prover_has c3) [a1; a2] [Curve.smul 1 (G Fq); Curve.smul 2 (G Fq)]) by (constructor; [exact Ha1'|]; constructor; [exact Ha2|constructor]).
  assert (HS : Forall (valid c3) [s1; s2]) by (constructor; [exact Hs1'|]; constructor; [exact Hs2'|constructor]).
  destruct (C16_shamir_complete_partial c3 [a1; a2] [s1; s2] _ G3 HP HS eq_refl ltac:(rewrite ED; exact HT)) as (r & c' & Er & _).
  destruct (C54_multi_exp_measured_partial c3 [a1; a2] [s1; s2] _ G3 HP HS eq_refl ltac:(rewrite ED; exact HM)) as (q & d' & Eq & _). clear HP HS ED HT.
  assert (FR : Forall fresh_point [a1; a2]) by (constructor; [exact (assigned_fresh _ _ _ _ _ _ F1)|]; constructor; [exact (assigned_fresh _ _ _ _ _ _ F2)|constructor]).
  assert (SL : Forall2 same_layout [a1; a2] [a1; a2]) by (constructor; [apply same_self|]; constructor; [apply same_self|constructor]).
  exists a1, a2, s1, s2, c3, r, c', q, d'. do 7 (split; [assumption|]). split; [exact HM|]. split; [exact FR|]. split; [exact SL|]. split; [exact Er|]. split; [exact Eq|].
  exact (C54_multi_exp_exact Fr Fq [a1; a2] [a1; a2] [s1; s2] [s1; s2] c3 c3 r c' q d' FR FR SL eq_refl ltac:(discriminate) eq_refl Er Eq).
Qed.
Print Assumptions C54_example_multi_exp.

(** ** A single point

    Over BN254 a scalar has 64 digits, and each of the 62 rounds that are not laid out counts
    a row too many at least: the accumulator, which stands in for the picked point, has no
    cached slope. *)
Theorem C54_single_counts_more (p q : apoint Fr) s t c d r c' u d' : fresh_point p -> fresh_point q -> same_layout p q -> offset c = offset d ->
  shamir Fq [p] [s] c = Some (r, c') -> shamir_measured Fq [q] [t] d = Some (u, d') -> offset c' + 62 <= offset d'.
Proof.
  intros Hp Hq HL Hcd E E'.
  pose proof (layouts_related [p] [q] (Forall2_cons _ _ HL (Forall2_nil _)) (Forall_cons _ Hp (Forall_nil _)) (Forall_cons _ Hq (Forall_nil _))) as R.
  pose proof (Forall_inv (fresh_plain [p] (Forall_cons _ Hp (Forall_nil _)))) as P1. pose proof (Forall_inv (fresh_plain [q] (Forall_cons _ Hq (Forall_nil _)))) as P2.
  assert (R1 : RT Fr (fun _ _ => True) p q) by (inversion R; assumption).
  destruct (shamir_single Fr Fq p q s t R1 P1 P2 c d ltac:(rewrite Hcd; lia) _ _ _ _ E E') as [A _]. rewrite (windows_4 Fr fr_n) in A. exact A.
Qed.
Print Assumptions C54_single_counts_more.
(** So that C54_multi_exp_exact without its condition is false: 300·G. *)
Theorem C54_exact_single_refuted : exists p s c r c' u d', fresh_point p /\ good c /\ prover_has c p (G Fq) /\ valid c s /\ value s = 300%N /\
  shamir Fq [p] [s] c = Some (r, c') /\ sat (adv c') c' /\ shamir_measured Fq [p] [s] c = Some (u, d') /\ sat (adv d') d' /\ offset c' < offset d'.
Proof.
  destruct (assign_cpl Fr (ctx0 Fr) (ofZ 300) (good_ctx0 Fr)) as (s & c0 & _ & _ & G0 & Hs & Vs).
  destruct (assign_point_hp Fr Fq fr_n fq_n c0 (Curve.smul 1 (G Fq)) (son Fq 1 _ OG) G0) as (a & c & F & L & Gc & Ha).
  assert (V : value s = 300%N) by (unfold value; rewrite Vs; vm_compute; reflexivity).
  set (E := [(300, 1)]%N). assert (HT : shamir_tangents (pts Fq E)).
  { apply slucky_shamir_tangents; [apply pts_on|]. apply (sluckyb_ok Fq fq_n ex_multiples E ex_fine_fq). vm_compute. reflexivity. }
  assert (HM : measured_tangents (pts Fq E)).
  { apply small_tangents; [exact HT|]. apply Forall_cons; [reflexivity|]. apply Forall_nil. }
  pose proof (valid_le Fr c0 c s L Hs) as Hs'.
  assert (ED : combine (map value [s]) [Curve.smul 1 (G Fq)] = pts Fq E) by (cbn [map combine]; rewrite V; reflexivity).
  assert (HP : Forall2 (prover_has c) [a] [Curve.smul 1 (G Fq)]) by (constructor; [exact Ha|constructor]).
  assert (HS : Forall (valid c) [s]) by (constructor; [exact Hs'|constructor]).
  destruct (C16_shamir_complete_partial c [a] [s] _ Gc HP HS eq_refl ltac:(rewrite ED; exact HT)) as (r & c' & Er & S1 & _).
  destruct (C54_multi_exp_measured_partial c [a] [s] _ Gc HP HS eq_refl ltac:(rewrite ED; exact HM)) as (q & d' & Eq & S2 & _). clear HP HS ED HT HM.
  pose proof (assigned_fresh _ _ _ _ _ _ F) as FR.
  exists a, s, c, r, c', q, d'. split; [exact FR|]. split; [exact Gc|]. split; [exact Ha|]. split; [exact Hs'|]. split; [exact V|]. split; [exact Er|]. split; [exact S1|]. split; [exact Eq|]. split; [exact S2|].
  pose proof (C54_single_counts_more a a s s c c r c' q d' FR FR (same_self a) eq_refl Er Eq) as K. lia.
Qed.
Print Assumptions C54_exact_single_refuted.

(** The circuit of C52's example: the proof for the instance 5 is aggregated, and the
    measuring pass has been given another one, for the instance 7. *)
Notation measured_exponents := (mlrun Fr 2 1 one_point one_decode (f1 : Fr) ex_multiples).
Definition mini_measured_end (s : cst Fr E1 unit) : bool :=
  match val_p s 53, val_p s 66, val_s s 0, val_p s 5 with Some _, Some _, Some _, Some _ => true | _, _, _, _ => false end.
Notation mini_measured v e := (match measured_exponents (mini_calls E1 (f1 : Fr)) (mkC [] [fr v] (map (fun b => mkTr b tt) [[]; [1; 2; 1; 2; 1; 2; e; 0; 0; 1; 2; 1; 2]%Z])) with
  | Some s => mini_measured_end s = true | None => False end).
Lemma mini_measured_end_ok s : mini_measured_end s = true -> exists a b x y, val_p s 53 = Some (a : E1) /\ val_p s 66 = Some (b : E1) /\ val_s s 0 = Some x /\ val_p s 5 = Some (y : E1).
Proof. unfold mini_measured_end. destruct (val_p s 53), (val_p s 66), (val_s s 0), (val_p s 5); try discriminate. intros _. repeat eexists. Qed.
Lemma mini_measured7 : mini_measured 7%Z 4%Z.
Proof. vm_compute. reflexivity. Qed.
Notation mini_first v e := (x_verify Fr Fq BN affine 2 1 pair_decode one_decode (two_spec Fr) 1 (two_init Fr) G12 (fun _ => 2%nat) (minis v e) [] (ctx0 Fr)).
Notation mini_first_measured v e := (m_verify Fr Fq BN affine 2 1 pair_decode one_decode (two_spec Fr) 1 (two_init Fr) G12 (fun _ => 2%nat) (minis v e) [] (ctx0 Fr)).
Lemma mini_measured_ends v e : mini_measured v e -> exists r c, mini_first_measured v e = Some (r, c).
Proof.
  intro H. destruct (measured_exponents (mini_calls E1 (f1 : Fr)) _) as [s|] eqn:E; [|contradiction].
  destruct (mlrun_ok Fr Fq fr_n fq_n one_two one_two_G 2 1 one_point pair_decode one_point_ok one_decode f1 ex_multiples (mini_calls E1 (f1 : Fr)) ex_fine_fq (mkC [] [fr v] (map (fun b => mkTr b tt) [[]; [1; 2; 1; 2; 1; 2; e; 0; 0; 1; 2; 1; 2]%Z]))
    (mkC [] [fr v] (map (fun b => mkTr b (start (two_init Fr))) [[]; [1; 2; 1; 2; 1; 2; e; 0; 0; 1; 2; 1; 2]%Z])) s) with (2 := E) as [A (b' & B & R)].
  { split; [reflexivity|]. split; [reflexivity|]. cbn [c_trs map]. constructor; [|constructor; [|constructor]]; (split; [reflexivity|]; exists f0; reflexivity). }
  rewrite mini_on_calls in A, B. clear E. destruct (mini_measured_end_ok s H) as (a & b & x & y & Ea & Eb & Ex & Ey). clear H.
  pose proof (mini_generated_calls BN G12 v e) as Ec. unfold mini_generated in Ec.
  assert (Ea' := f_val_p Fr BN one_two _ _ s b' _ _ R Ea). assert (Eb' := f_val_p Fr BN one_two _ _ s b' _ _ R Eb).
  assert (Ex' : mapM (val_s b') [0] = Some [x]) by (apply (f_mapM_s Fr BN one_two _ _ s b' _ _ R); cbn [mapM]; rewrite Ex; reflexivity).
  assert (Ey' : mapM (mapM (val_p b')) [[5]] = Some [[times one_two y]]) by (cbn [mapM]; rewrite (f_val_p Fr BN one_two _ _ s b' _ _ R Ey); reflexivity).
  rewrite <- (mini_given_instances BN G12 v e) in A, B. change ([[]; [1; 2; 1; 2; 1; 2; e; 0; 0; 1; 2; 1; 2]%Z]) with ([] :: [[1; 2; 1; 2; 1; 2; e; 0; 0; 1; 2; 1; 2]%Z]) in A, B. rewrite <- (mini_given_bytes BN G12 v e) in A, B.
  destruct (m_verify_cpl Fr Fq fr_n fq_n 2 1 pair_decode one_decode (two_spec Fr) 1 (two_wf Fr) (two_init Fr) eq_refl G12 (ctx0 Fr) (fun _ => 2) (minis v e) [] 53 66 [0] [[5]] (mini_calls BN G12) 67
    b' (times one_two a) (times one_two b) [x] [[times one_two y]] Ec B Ea' Eb' Ex' Ey' A (Forall_nil _) (good_ctx0 Fr)) as (r & c & E & _).
  exists r, c. exact E.
Qed.
Section Parts.
  Variables N W : PF.
  Variable M : Mod N.
  Lemma synthesize_parts affine PT SC pd sd sp RATE init g nw (gs : list (given N (kzg N M) (key N M))) co c0 r c :
    x_synthesize N W M affine PT SC pd sd sp RATE init g nw gs co c0 = Some (r, c) -> exists p q i ns c1 pub,
    x_verify N W M affine PT SC pd sd sp RATE init g nw gs co c0 = Some ((p, q, i, ns), c1) /\ synthesize_tail N W p q i c1 = Some (pub, c).
  Proof.
    unfold x_synthesize, bind. destruct (x_verify _ _ _ _ _ _ _ _ _ _ _ _ _ _ _ _) as [[[[[p q] i] ns] c1]|]; [|discriminate]. destruct (synthesize_tail N W p q i c1) as [[pub c2]|] eqn:E; [|discriminate].
    intro H. injection H as _ <-. exists p, q, i, ns, c1, pub. split; [reflexivity|exact E].
  Qed.
End Parts.
Example C54_example : exists r c r' c', Forall2 same_but_proofs (minis 5 0) (minis 7 4) /\ mini_first 5 0 = Some (r, c) /\ mini_first_measured 7 4 = Some (r', c') /\ offset c <= offset c'.
Proof.
  destruct (mini_circuit 5 0 3 15 mini_run5 ltac:(discriminate) ltac:(discriminate)) as (ns & column & notes & c & E & _).
  destruct (synthesize_parts Fr Fq BN _ _ _ _ _ _ _ _ _ _ _ _ _ _ _ E) as (p & q & i & n1 & c1 & pub & E1 & _). clear E.
  destruct (mini_measured_ends 7 4 mini_measured7) as (r' & c' & E').
  exists (p, q, i, n1), c1, r', c'. split; [apply mini_same|]. split; [exact E1|]. split; [exact E'|].
  exact (C54_never_too_few Fr Fq BN affine 2 1 pair_decode one_decode (two_spec Fr) 1 (two_init Fr) G12 (fun _ => 2) (minis 5 0) (minis 7 4) [] _ _ _ _ (mini_same 5 0 7 4) E1 E').
Qed.
Print Assumptions C54_example.
(** The results of these two passes have the same layout; and the second region, laid out
    for the results of the two proofs, takes the same rows. *)
Example C54_example_results : exists p q i ns c p' q' i' ns' c', mini_first 5 0 = Some ((p, q, i, ns), c) /\ mini_first_measured 7 4 = Some ((p', q', i', ns'), c') /\
  same_layout p p' /\ same_layout q q' /\ length i = length i'.
Proof.
  destruct C54_example as ([[[p q] i] ns] & c & [[[p' q'] i'] ns'] & c' & S & E & E' & _). exists p, q, i, ns, c, p', q', i', ns', c'. split; [exact E|]. split; [exact E'|].
  exact (C54_results_layout Fr Fq BN affine 2 1 pair_decode one_decode (two_spec Fr) 1 (two_init Fr) G12 (fun _ => 2) (minis 5 0) (minis 7 4) [] _ _ _ _ _ _ _ _ _ _ S E E').
Qed.
Lemma two_G : Curve.smul 2 (G Fq) <> Inf.
Proof.
  assert (V : toZ (fr 2) = 2%Z) by (vm_compute; reflexivity). pose proof (mini_not_inf (fr 2)) as H. rewrite (aff_times Fr Fq fr_n fq_n one_two one_two_G) in H. unfold scN in H. rewrite V in H. apply H. discriminate.
Qed.
Lemma one_G : G Fq <> Inf.
Proof. intro E. apply two_G. rewrite E. reflexivity. Qed.
Lemma held_affine (c : ctx Fr) a (P : point Fq) : P <> Inf -> hp Fr Fq c a P -> exists x y i j, has_pt Fr Fq c a x y false i j.
Proof. intros HP (_ & (i & j & H & _) & _). destruct P as [|x y]; [congruence|]. exists x, y, i, j. exact H. Qed.
Lemma tail_case (P Q : point Fq) : on_curve b3 P -> on_curve b3 Q -> P <> Inf -> Q <> Inf -> exists a b c1 c2 pub e,
  assign_point P (ctx0 Fr) = Some (a, c1) /\ assign_point Q c1 = Some (b, c2) /\ synthesize_tail Fr Fq a b [] c2 = Some (pub, e).
Proof.
  intros OP OQ NP NQ. destruct (assign_point_hp Fr Fq fr_n fq_n (ctx0 Fr) P OP (good_ctx0 Fr)) as (a & c1 & E1 & _ & G1 & H1).
  destruct (assign_point_hp Fr Fq fr_n fq_n c1 Q OQ G1) as (b & c2 & E2 & L2 & G2 & H2). pose proof (hp_le Fr Fq _ _ _ _ L2 H1) as H1'.
  destruct (held_affine _ _ _ NP H1') as (x0 & y0 & i0 & j0 & K1). destruct (held_affine _ _ _ NQ H2) as (x1 & y1 & i1 & j1 & K2).
  destruct (synthesize_tail_cpl Fr Fq fr_n fq_n c2 a b x0 y0 i0 j0 x1 y1 i1 j1 [] K1 K2 (Forall_nil _) G2) as (pub & e & E & _).
  exists a, b, c1, c2, pub, e. split; [exact E1|]. split; [exact E2|exact E].
Qed.
Lemma assigned_alike (N W : PF) (P Q : point W) (c d : ctx N) a c' b d' : offset c = offset d -> assign_point P c = Some (a, c') -> assign_point Q d = Some (b, d') -> offset c' = offset d' /\ same_layout a b.
Proof.
  intros H E E'. assert (shift : forall a b n, a = b -> a + n = b + n) by (intros u v n ->; reflexivity).
  destruct (assign_point_shp N W (@RP N eq) (fun _ _ => True) (rows_line N eq shift) (rows_rline N eq shift) P Q c d H _ _ _ _ E E') as [A B].
  split; [exact A|]. split; apply related_form; [exact (rtx _ _ _ _ B)|exact (rty _ _ _ _ B)].
Qed.
(** The pairs G, 2G and 2G, G. *)
Example C54_example_second_region : exists p q p' q' (d d' : ctx Fr) pub e pub' e', same_layout p p' /\ same_layout q q' /\ offset d = offset d' /\
  synthesize_tail Fr Fq p q [] d = Some (pub, e) /\ synthesize_tail Fr Fq p' q' [] d' = Some (pub', e') /\ offset e = offset e' /\ length pub = length pub'.
Proof.
  destruct (tail_case (G Fq) (Curve.smul 2 (G Fq)) OG (son Fq 2 _ OG) one_G two_G) as (p & q & c1 & d & pub & e & E1 & E2 & E3).
  destruct (tail_case (Curve.smul 2 (G Fq)) (G Fq) (son Fq 2 _ OG) OG two_G one_G) as (p' & q' & c1' & d' & pub' & e' & F1 & F2 & F3).
  destruct (assigned_alike Fr Fq _ _ _ _ _ _ _ _ eq_refl E1 F1) as [A1 S1]. destruct (assigned_alike Fr Fq _ _ _ _ _ _ _ _ A1 E2 F2) as [A2 S2]. clear E1 E2 F1 F2.
  destruct (C54_second_region Fr Fq p q [] p' q' [] d d' pub e pub' e' S1 S2 eq_refl A2 E3 F3) as [B1 B2].
  exists p, q, p', q', d, d', pub, e, pub', e'. repeat (split; [assumption|]). exact B2.
Qed.
Print Assumptions C54_example_second_region.
