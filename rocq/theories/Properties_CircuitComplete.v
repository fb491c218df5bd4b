(** Property C52: an honest prover can satisfy the aggregation circuit.

    Converse of C51.  If native verification of the proofs comes to its end, then laying the
    circuit out with these proofs comes to its end as well, the prover's values satisfy all
    constraints, and the public inputs are the numbers computed natively - provided the
    slopes of the tangents that the elliptic-curve chip needs can be computed (C13, C16) and
    no sum of points is the identity unless both summands are. *)
From Coq Require Import String ZArith NArith Arith Lia List Bool.
From Verif Require Import Util Algebra ListFacts Schema Plonk Poseidon PoseidonSpec BuildParams.
From Verif Require Import PField Gate GateProofs GateOps GateExtra Integer Bn254 Bn254Prime IntegerFacts IntegerSound IntegerComplete IntegerHistorySound IntegerHistory IntegerHistoryComplete
  CircuitCheck Curve CurveAssoc Bn254Curve Ecc EccSound EccScalar EccMul EccComplete EccHistory CurveOrder GeneratorOrder EccMulComplete EccHonest EccLucky CurveMod CircuitSponge Calls VerifierCalls VerifierCallsTop
  VerifyCircuit VerifyCircuitProofs Properties_Integer Properties_Ecc Properties_EccHonest Properties_Circuit CircuitRun CircuitRunSpec CallOrder CircuitHonest CircuitHonestTop ExponentRun Properties_Calls Properties_CircuitRun.
Import ListNotations.
Local Open Scope Z_scope.
Local Notation fr_n := (eq_refl : pf_n Fr = fr_mod).
Local Notation fq_n := (eq_refl : pf_n Fq = fq_mod).

Definition number (x : Fr) : N := Z.to_N (toZ x).
(** The cell or assigned point [x] has the value [v] (C51's [agrees] without the cache). *)
Definition holds (w : asg Fr) (x : xval Fr) (v : cval Fr BN) : Prop :=
  match x, v with XS a, VS s => w (av_cell a) = s | XP p, VP P => locates w p (affine P) | _, _ => False end.

(** *** from the prover's values to the notions of C51 *)
Lemma has_integer (c : ctx Fr) a (v : Fq) : has_int Fr Fq c a (v, 0%nat) -> integer (adv c) a = toZ v.
Proof.
  intro H. destruct (has_toZ Fr Fq fr_n fq_n _ _ _ _ H) as [_ E]. rewrite <- (E eq_refl). destruct H as ((O & _) & _). exact (ok_iv Fr c a O).
Qed.
Lemma flag_bool (c : ctx Fr) f z : has_bit Fr c f z -> adv c (av_cell f) = if z then f1 else f0.
Proof. intros [[_ V] E]. now rewrite V. Qed.
Lemma notes_hold (c : ctx Fr) notes : Forall (note_fine Fr Fq c) notes -> flags_boolean (adv c) notes /\ divisors_nonzero (adv c) notes /\ canonical (adv c) notes.
Proof.
  intro H. rewrite Forall_forall in H. split; [|split].
  - intros p Hp. destruct (H _ Hp) as (z & Hz). rewrite (flag_bool c _ z Hz). destruct z; [right|left]; reflexivity.
  - intros b Hb. destruct (H _ Hb) as (x & [[_ V] E] & Nz). rewrite V, E. exact Nz.
  - intros p Hp. destruct (H _ Hp) as (P & _ & Hx & Hy & Hz & _). rewrite (has_integer c _ _ Hx), (has_integer c _ _ Hy).
    split; [apply (toZ_range Fq)|]. split; [apply (toZ_range Fq)|]. rewrite (flag_bool c _ _ Hz). destruct P as [|x y].
    + intros _. unfold px, py. cbn. split; reflexivity.
    + intro E. exfalso. apply f1_f0. symmetry. exact E.
Qed.
Lemma shown_locates (c : ctx Fr) p P : shown Fr Fq c p P -> locates (adv c) p P.
Proof.
  intros (O & x & y & z & i & j & (Hx & Hy & Hz & _) & E).
  destruct (has_holds Fr Fq c _ _ _ Hx) as [Vx Wx]. destruct (has_holds Fr Fq c _ _ _ Hy) as [Vy Wy].
  split; [exact Wx|]. split; [exact Wy|]. pose proof (flag_bool c _ z Hz) as Ez. destruct z; [left; split; [exact Ez|exact E]|right].
  split; [exact Ez|]. split; [|exact O]. change (element (adv c) (pt_x p)) with (fv Fq (adv c) (pt_x p)). change (element (adv c) (pt_y p)) with (fv Fq (adv c) (pt_y p)). now rewrite Vx, Vy.
Qed.
Lemma vals_hold RATE (c : ctx Fr) ks s ns : rel Fr Fq fr_n fq_n RATE c ks s ns -> Forall2 (holds (adv c)) (x_vals s) (c_vals ns).
Proof.
  intros ((L & _ & H) & _). revert L H. generalize (x_vals s) (c_vals ns). intros xs vs. revert ks xs. induction vs as [|v vs IH]; intros ks [|x xs] L H; try discriminate L; [constructor|].
  destruct ks as [|k ks]; [destruct (H 0%nat v eq_refl) as (? & ? & E & _); discriminate E|]. constructor.
  - destruct (H 0%nat v eq_refl) as (k' & x' & E1 & E2 & R). injection E1 as <-. injection E2 as <-. destruct x as [a|p], v as [y|P], k; cbn in R |- *; try contradiction.
    + destruct R as [[_ V] E]. now rewrite V.
    + exact (shown_locates c p _ (hx_shown Fr Fq c p _ R)).
    + exact (shown_locates c p _ (hp_shown Fr Fq c p _ R)).
    + exact (shown_locates c p _ R).
  - apply (IH ks). { now injection L. } intros i v' E. exact (H (S i) v' E).
Qed.
Lemma column_holds (c : ctx Fr) column ns : shows Fr c column (map toZ ns) -> map (fun a => adv c (av_cell a)) column = ns.
Proof.
  intros [V E]. apply map_toZ_inj. rewrite map_map, <- E. clear E. induction V as [|a l [_ H] _ IH]; [reflexivity|]. cbn [map]. now rewrite IH, H.
Qed.

Section C52.
  (** The encodings of points and scalars in proofs. *)
  Variables (PT SC : nat).
  Hypothesis Hpos : (1 <= PT)%nat.
  Variable pt_decode : list Z -> option BN.
  Variable sc_decode : list Z -> option Fr.
  (** Constants of the sponge of proper sizes. *)
  Variable sp : pspec Fr.
  Variable RATE : nat.
  Hypothesis wf : wf_spec sp RATE.
  Variable init : list Fr.
  Hypothesis L0 : List.length init = S RATE.
  Variable generator : BN.
  Notation sponge := (pstate Fr (mock_chip Fr)).
  Notation given := (given Fr (kzg Fr BN) (key Fr BN)).
  Notation layout := (x_synthesize Fr Fq BN affine PT SC pt_decode sc_decode sp RATE init generator).
  Notation lay_out calls inst bytes :=
    (ts <- bmap (x_transcript Fr init) bytes ;; x_calls Fr Fq BN affine PT SC pt_decode sc_decode sp RATE generator calls (mkX [] inst ts)).
  Notation native_call := (run_call Fr BN PT SC pt_decode sc_decode sponge (native_pt Fr Fq BN affine) (native_sc Fr) (native_sqz Fr sp RATE) generator).
  Notation native_run := (run_calls Fr BN PT SC pt_decode sc_decode sponge (native_pt Fr Fq BN affine) (native_sc Fr) (native_sqz Fr sp RATE) generator).
  Notation native_aggregation := (verify_aggregation_proofs_in_chip Fr BN PT SC pt_decode sc_decode sponge
    (native_pt Fr Fq BN affine) (native_sc Fr) (native_sqz Fr sp RATE)).
  Notation native_final_pair := (calc_verify_circuit_final_pair Fr Fq BN PT SC pt_decode sc_decode sponge
    (native_pt Fr Fq BN affine) (native_sc Fr) (native_sqz Fr sp RATE) (start init) affine).
  Notation points_after gs := (count_of Fr BN PT SC pt_decode sc_decode sponge (native_pt Fr Fq BN affine) (native_sc Fr) (native_sqz Fr sp RATE)
    (all_proofs Fr BN sponge (map (circuit_proof_of Fr BN sponge (start init)) gs))).
  Implicit Types (gs : list given).

  (** ** What the chip needs

      The slopes of the tangents that the calls' elliptic-curve operations use can be
      computed, and sums do not cancel, in the native run. *)
  Definition slopes_call (k : call Fr BN) (s : cst Fr BN sponge) : Prop :=
    match k with
    | CPAdd i j => forall P Q, val_p s i = Some P -> val_p s j = Some Q -> tangent (affine P) /\ no_cancel (affine P) (affine Q)
    | CPSub i j => forall P, val_p s i = Some P -> tangent (affine P)
    | CPMul i j => forall x P, val_s s i = Some x -> val_p s j = Some P -> mul_tangents (number x) (affine P)
    | CMultiExp ps ss => forall Ps xs, mapM (val_p s) ps = Some Ps -> mapM (val_s s) ss = Some xs -> shamir_tangents (combine (map number xs) (map affine Ps))
    | _ => True
    end.
  Fixpoint slopes_calls (cs : list (call Fr BN)) (s : cst Fr BN sponge) : Prop :=
    match cs with [] => True | k :: cs => slopes_call k s /\ forall s', native_call k s = Some s' -> slopes_calls cs s' end.
  (** For the calls that [synthesize_proof] makes on the given proofs; [nw k] is the number
      of opening points of the [k]-th proof, that is, what its bytes hold (C45). *)
  Definition slopes_given (nw : nat -> nat) gs : Prop := forall r calls n,
    c_verify_aggregation_proofs_in_chip Fr BN 0%nat (hcircuits_of Fr BN unit nw 1%nat (given_circuits Fr BN gs)) 0%nat = Some (r, calls, n) ->
    slopes_calls calls (mkC [] (all_instances Fr BN unit (given_circuits Fr BN gs)) (map (fun b => mkTr b (start init)) ([] :: given_bytes Fr BN gs))).

  Lemma on_c (P : BN) : on_curve b3 (affine P).
  Proof. exact (a_on Fr Fq fr_n fq_n P). Qed.
  Lemma slopes_lucky cs : forall s, slopes_calls cs s -> lucky_calls Fr Fq fr_n fq_n PT SC pt_decode sc_decode sp RATE generator cs s.
  Proof.
    induction cs as [|k cs IH]; intros s H; [exact I|]. destruct H as [H1 H2]. split; [|intros s' E; exact (IH s' (H2 s' E))].
    clear H2. destruct k; try exact I; cbn [slopes_call lucky_call] in *.
    - intros P Q EP EQ. destruct (H1 P Q EP EQ) as [A B]. split; [exact (proj1 (tangent_fine _ (on_c P)) A)|exact B].
    - intros P EP. exact (proj1 (tangent_fine _ (on_c P)) (H1 P EP)).
    - intros x P Ex EP. exact (proj1 (mul_tangents_lucky _ _ (on_c P)) (H1 x P Ex EP)).
    - intros Ps xs EP Ex. apply shamir_tangents_slucky; [|exact (H1 Ps xs EP Ex)]. apply Forall_forall. intros [n P] HI. apply in_combine_r, in_map_iff in HI.
      destruct HI as (P' & <- & _). exact (on_c P').
  Qed.
  Lemma lucky_slopes cs : forall s, lucky_calls Fr Fq fr_n fq_n PT SC pt_decode sc_decode sp RATE generator cs s -> slopes_calls cs s.
  Proof.
    induction cs as [|k cs IH]; intros s H; [exact I|]. destruct H as [H1 H2]. split; [|intros s' E; exact (IH s' (H2 s' E))].
    clear H2. destruct k; try exact I; cbn [slopes_call lucky_call] in *.
    - intros P Q EP EQ. destruct (H1 P Q EP EQ) as [A B]. split; [exact (proj2 (tangent_fine _ (on_c P)) A)|exact B].
    - intros P EP. exact (proj2 (tangent_fine _ (on_c P)) (H1 P EP)).
    - intros x P Ex EP. exact (proj2 (mul_tangents_lucky _ _ (on_c P)) (H1 x P Ex EP)).
    - intros Ps xs EP Ex. apply slucky_shamir_tangents; [|exact (H1 Ps xs EP Ex)]. apply Forall_forall. intros [n P] HI. apply in_combine_r, in_map_iff in HI.
      destruct HI as (P' & <- & _). exact (on_c P').
  Qed.

  (** ** Any list of chip calls in an admissible order

      [orderly]: the points that are added, multiplied and absorbed are assigned, normalised
      or results of multiplications and additions; an order of operations that all
      verifications have (CallOrder.v). Missing to "no condition": the slopes. *)
  Theorem C52_calls_complete_partial calls inst bytes s' :
    orderly [] calls = true ->
    native_run calls (mkC [] inst (map (fun b => mkTr b (start init)) bytes)) = Some s' ->
    slopes_calls calls (mkC [] inst (map (fun b => mkTr b (start init)) bytes)) ->
    exists s notes c', lay_out calls inst bytes (ctx0 Fr) = Some ((s, notes), c') /\ sat (adv c') c' /\
      flags_boolean (adv c') notes /\ divisors_nonzero (adv c') notes /\ canonical (adv c') notes /\ Forall2 (holds (adv c')) (x_vals s) (c_vals s').
  Proof.
    intros Ho Er Hs.
    destruct (laid_out_cpl Fr Fq fr_n fq_n PT SC pt_decode sc_decode sp RATE wf init L0 generator (ctx0 Fr) calls inst bytes s' Ho Er (slopes_lucky _ _ Hs) (good_ctx0 Fr))
      as ([s notes] & c' & E & _ & G' & R & Hn). cbn [fst snd] in R, Hn.
    exists s, notes, c'. split; [exact E|]. split; [exact (good_sat Fr c' G')|]. destruct (notes_hold c' notes Hn) as (A & B & C).
    split; [exact A|]. split; [exact B|]. split; [exact C|]. exact (vals_hold RATE c' _ s s' R).
  Qed.

  (** ** The whole circuit

      [coherent] lists pairs of commitments that the circuit asserts to be equal. *)
  Definition commitments_agree (advices : list (list BN)) (co : (nat * nat) * (nat * nat)) : Prop :=
    exists l a l' b, nth_error advices (fst (fst co)) = Some l /\ nth_error l (snd (fst co)) = Some a /\
      nth_error advices (fst (snd co)) = Some l' /\ nth_error l' (snd (snd co)) = Some b /\ affine a = affine b.
  Notation opening_points_counted nw gs := (counts Fr BN PT SC pt_decode sc_decode sponge (native_pt Fr Fq BN affine) (native_sc Fr) (native_sqz Fr sp RATE) nw 1
    (all_proofs Fr BN sponge (map (circuit_proof_of Fr BN sponge (start init)) gs))).
  Theorem C52_circuit_complete_partial nw gs coherent wx wg ins advices ns :
    (forall g, nth_error gs 0 = Some g -> VerifyCircuit.k_generator _ _ (g_params g) = generator) ->
    native_aggregation (map (circuit_proof_of Fr BN sponge (start init)) gs) (start init) = Some (wx, wg, ins, advices) ->
    final_pair_to_instances Fr Fq (affine wx) (affine wg) ins = Some ns -> opening_points_counted nw gs ->
    Forall (commitments_agree advices) coherent -> slopes_given nw gs ->
    exists column notes c', layout nw gs coherent (ctx0 Fr) = Some ((column, notes), c') /\ sat (adv c') c' /\
      flags_boolean (adv c') notes /\ divisors_nonzero (adv c') notes /\ canonical (adv c') notes /\
      map (fun a => adv c' (av_cell a)) column = ns.
  Proof.
    intros Hg Ea En Hc Hco Hs. apply C40_native in En as (HP & HQ & En).
    destruct (affine wx) as [|x0 y0] eqn:E0; [congruence|]. destruct (affine wg) as [|x1 y1] eqn:E1; [congruence|].
    assert (Lk : lucky_given Fr Fq fr_n fq_n PT SC pt_decode sc_decode sp RATE init generator nw gs) by (intros r calls n E; exact (slopes_lucky _ _ (Hs r calls n E))).
    destruct (x_synthesize_cpl Fr Fq fr_n fq_n PT SC Hpos pt_decode sc_decode sp RATE wf init L0 generator (ctx0 Fr) nw gs coherent wx wg ins advices
      x0 y0 x1 y1 Hg Ea Hc Lk Hco E0 E1 (good_ctx0 Fr)) as ([column notes] & c' & E & _ & G' & S & Hn). cbn [fst snd] in S, Hn.
    exists column, notes, c'. split; [exact E|]. split; [exact (good_sat Fr c' G')|]. destruct (notes_hold c' notes Hn) as (A & B & C).
    split; [exact A|]. split; [exact B|]. split; [exact C|]. apply column_holds. rewrite En. exact S.
  Qed.
  (** In terms of the native final pair (C40): the same without the list of commitments. *)
  Theorem C52_final_pair_partial gs P Q ins ns :
    (forall g, nth_error gs 0 = Some g -> VerifyCircuit.k_generator _ _ (g_params g) = generator) ->
    native_final_pair gs = Some (P, Q, ins) -> final_pair_to_instances Fr Fq P Q ins = Some ns -> slopes_given (points_after gs) gs ->
    exists nw column notes c', layout nw gs [] (ctx0 Fr) = Some ((column, notes), c') /\ sat (adv c') c' /\
      flags_boolean (adv c') notes /\ divisors_nonzero (adv c') notes /\ canonical (adv c') notes /\
      map (fun a => adv c' (av_cell a)) column = ns.
  Proof.
    intros Hg Ea En Hs. unfold calc_verify_circuit_final_pair in Ea.
    destruct (native_aggregation (map (circuit_proof_of Fr BN sponge (start init)) gs) (start init)) as [[[[wx wg] ins'] advices]|] eqn:E; [|discriminate Ea].
    injection Ea as <- <- <-. exists (points_after gs). exact (C52_circuit_complete_partial (points_after gs) gs [] wx wg ins' advices ns Hg E En
      (aggregation_counts Fr BN PT SC pt_decode sc_decode sponge _ _ _ _ _ _ E) (Forall_nil _) Hs).
  Qed.
End C52.
Print Assumptions C52_calls_complete_partial.
Print Assumptions C52_circuit_complete_partial.
Print Assumptions C52_final_pair_partial.

(** ** Concrete cases

    The sponge [two_spec] draws the challenge 2 every time (ExponentRun.v), all points of
    the proof are the generator (1, 2). *)
Notation E1 := (self_mod Fr).
Definition G12 : BN := times one_two (f1 : E1).
Definition one_point (bs : list Z) : option E1 := match bs with [x; y] => if (x =? 1) && (y =? 2) then Some (f1 : Fr) else None | _ => None end.
Lemma one_point_ok bs e : one_point bs = Some e -> pair_decode bs = Some (times one_two e).
Proof.
  destruct bs as [|x [|y [|]]]; try discriminate. cbn [one_point]. destruct (Z.eqb_spec x 1) as [->|]; [|discriminate]. destruct (Z.eqb_spec y 2) as [->|]; [|discriminate].
  intro E. injection E as <-. unfold times. rewrite Algebra.smul_1. unfold pair_decode. change (1 <? 0) with false. cbv iota. apply lift_pt_iff. reflexivity.
Qed.
Lemma one_two_G : affine one_two = G Fq.
Proof. reflexivity. Qed.
Notation native2 := (run_calls Fr BN 2 1 pair_decode one_decode (pstate Fr (mock_chip Fr)) (native_pt Fr Fq BN affine) (native_sc Fr) (native_sqz Fr (two_spec Fr) 1) G12).
Notation slopes2 := (slopes_calls 2 1 pair_decode one_decode (two_spec Fr) 1 G12).
Notation exponents := (lrun Fr 2 1 one_point one_decode (f1 : Fr) ex_multiples).
Lemma exponents_ok (cs : list (call Fr E1)) inst bytes a' : exponents cs (mkC [] inst (map (fun b => mkTr b tt) bytes)) = Some a' ->
  slopes2 (map (on_call one_two) cs) (mkC [] inst (map (fun b => mkTr b (start (two_init Fr))) bytes)) /\
  exists b', native2 (map (on_call one_two) cs) (mkC [] inst (map (fun b => mkTr b (start (two_init Fr))) bytes)) = Some b' /\ follows one_two (two_ready Fr) a' b'.
Proof.
  intro E. destruct (lrun_ok Fr Fq fr_n fq_n one_two one_two_G 2 1 one_point pair_decode one_point_ok one_decode f1 ex_multiples cs (mkC [] inst (map (fun b => mkTr b tt) bytes))
    (mkC [] inst (map (fun b => mkTr b (start (two_init Fr))) bytes)) a' ex_fine_fq) with (2 := E) as [A B].
  - split; [reflexivity|]. split; [reflexivity|]. cbn [c_trs]. clear. induction bytes as [|b l IH]; constructor; [|exact IH]. split; [reflexivity|]. exists f0. reflexivity.
  - split; [|exact B]. apply lucky_slopes. exact A.
Qed.

(** Read a point and the scalar 300, multiply, add, absorb the sum and draw a challenge. *)
Definition few_calls (M : Mod Fr) : list (call Fr M) := [CReadPoint 0; CReadScalar 0; CPMul 1 0; CPAdd 0 2; CNormalize 3; CCommonPoint 0 4; CSqueeze 0].
Example C52_example_calls : wf_spec (two_spec Fr) 1 /\ List.length (two_init Fr) = 2%nat /\ orderly [] (few_calls BN) = true /\
  slopes2 (few_calls BN) (mkC [] [] (map (fun b => mkTr b (start (two_init Fr))) [[1; 2; 300]])) /\
  exists s', native2 (few_calls BN) (mkC [] [] (map (fun b => mkTr b (start (two_init Fr))) [[1; 2; 300]])) = Some s' /\ List.length (c_vals s') = 6%nat.
Proof.
  split; [exact (two_wf Fr)|]. split; [reflexivity|]. split; [reflexivity|].
  assert (H : match exponents (few_calls E1) (mkC [] [] (map (fun b => mkTr b tt) [[1; 2; 300]])) with Some s => List.length (c_vals s) = 6%nat | None => False end) by (vm_compute; reflexivity).
  destruct (exponents (few_calls E1) _) as [a'|] eqn:E; [|contradiction].
  destruct (exponents_ok (few_calls E1) _ _ a' E) as [A (b' & B & (V & _))]. split; [exact A|]. exists b'. split; [exact B|]. rewrite V, map_length. exact H.
Qed.

(** ** The whole circuit on one proof

    One circuit with one instance column and one advice column, queried at rotations 0 and
    2; the proof consists of five points (1, 2) and the evaluations [e], 0, 0, its instance is [v]. *)
Section Mini.
  Variable M : Mod Fr.
  Variable P : M.
  Variables v e : Z.
  Definition mini_vk : vkey Fr M := @mkVk Fr M (fr 77) 1 0 [0%nat] [0%nat] [] [] [] 3 1 0 [] [(0%nat, 0); (0%nat, 2)] [] [] [] [] (fr (-1)) (fr 7) 2.
  Definition mini : given Fr (kzg Fr M) (key Fr M) :=
    mkGiven "c"%string (mkKzg Fr M [P] P) (mini_vk, 1%nat) [GP [[[fr v]]] [1; 2; 1; 2; 1; 2; e; 0; 0; 1; 2; 1; 2] "p"%string].
  Definition mini_generated := c_verify_aggregation_proofs_in_chip Fr M 0%nat (hcircuits_of Fr M unit (fun _ => 2%nat) 1%nat (given_circuits Fr M [mini])) 0%nat.
  Definition mini_calls : list (call Fr M) := Eval vm_compute in match mini_generated with Some (_, calls, _) => calls | None => [] end.
  Lemma mini_generated_calls : mini_generated = Some (53%nat, 66%nat, [0%nat], [[5%nat]], mini_calls, 67%nat).
  Proof. vm_cast_no_check (eq_refl (Some (53%nat, 66%nat, [0%nat], [[5%nat]], mini_calls, 67%nat))). Qed.
  Variable St : Type.
  Variable h : St.
  Lemma mini_native_calls : c_verify_aggregation_proofs_in_chip Fr M 0%nat (hcircuits_of Fr M St (fun _ => 2%nat) 1%nat (map (circuit_proof_of Fr M St h) [mini])) 0%nat =
    Some (53%nat, 66%nat, [0%nat], [[5%nat]], mini_calls, 67%nat).
  Proof. vm_cast_no_check (eq_refl (Some (53%nat, 66%nat, [0%nat], [[5%nat]], mini_calls, 67%nat))). Qed.
  Lemma mini_instances : all_instances Fr M St (map (circuit_proof_of Fr M St h) [mini]) = [fr v].
  Proof. reflexivity. Qed.
  Lemma mini_transcripts : all_transcripts Fr M St (map (circuit_proof_of Fr M St h) [mini]) = [mkTr [1; 2; 1; 2; 1; 2; e; 0; 0; 1; 2; 1; 2] h].
  Proof. reflexivity. Qed.
  Lemma mini_given_instances : all_instances Fr M unit (given_circuits Fr M [mini]) = [fr v].
  Proof. reflexivity. Qed.
  Lemma mini_given_bytes : given_bytes Fr M [mini] = [[1; 2; 1; 2; 1; 2; e; 0; 0; 1; 2; 1; 2]].
  Proof. reflexivity. Qed.
End Mini.
Lemma mini_on_calls (M : Mod Fr) (g : M) (e : E1) : map (on_call g) (mini_calls E1 e) = mini_calls M (times g e).
Proof. reflexivity. Qed.
Notation minis v e := [mini BN G12 v e].
Definition mini_end (v a0 b0 : Z) (s : cst Fr E1 unit) : bool :=
  match val_p s 53, val_p s 66, mapM (val_s s) [0%nat], val_p s 5 with
  | Some a, Some b, Some [x], Some y => (toZ (a : car Fr) =? a0) && (toZ (b : car Fr) =? b0) && (toZ x =? v) && (toZ (y : car Fr) =? 1)
  | _, _, _, _ => false
  end && match c_inst s, map t_rest (c_trs s) with [], [[]; []] => true | _, _ => false end.
Lemma mini_end_ok v a0 b0 s : mini_end v a0 b0 s = true -> (exists a b x y, val_p s 53 = Some (a : E1) /\ val_p s 66 = Some (b : E1) /\ mapM (val_s s) [0%nat] = Some [x] /\ val_p s 5 = Some (y : E1) /\
  toZ (a : car Fr) = a0 /\ toZ (b : car Fr) = b0 /\ toZ x = v) /\ c_inst s = [] /\ exists t u, c_trs s = [t; u] /\ t_rest u = [].
Proof.
  unfold mini_end. rewrite andb_true_iff. intros [H1 H2]. split.
  - destruct (val_p s 53) as [a|]; [|discriminate]. destruct (val_p s 66) as [b|]; [|discriminate].
    destruct (mapM (val_s s) [0%nat]) as [[|x [|]]|]; try discriminate. destruct (val_p s 5) as [y|]; [|discriminate].
    rewrite !andb_true_iff, !Z.eqb_eq in H1. destruct H1 as (((Ha & Hb) & Hx) & _). exists a, b, x, y. auto 10.
  - destruct (c_inst s); [|discriminate]. split; [reflexivity|]. destruct (c_trs s) as [|t [|u [|]]]; cbn [map] in H2; try discriminate; destruct (t_rest t); try discriminate.
    + destruct (t_rest u) eqn:E; [|discriminate]. exists t, u. now split.
    + destruct (t_rest u); discriminate.
Qed.
Notation mini_run v e a0 b0 := (match exponents (mini_calls E1 (f1 : Fr)) (mkC [] [fr v] (map (fun b => mkTr b tt) [[]; [1; 2; 1; 2; 1; 2; e; 0; 0; 1; 2; 1; 2]])) with
  | Some s => mini_end v a0 b0 s = true | None => False end).
Lemma mini_run5 : mini_run 5 0 3 15.
Proof. vm_compute. reflexivity. Qed.
Lemma mini_not_inf (e : Fr) : toZ e <> 0 -> affine (times one_two (e : E1)) <> Inf.
Proof.
  intros H E. rewrite (aff_times Fr Fq fr_n fq_n one_two one_two_G) in E. destruct (nz Fq fq_n (scN Fr e) (G Fq)) with (3 := E) as [A|A].
  - exact (G_on Fq).
  - unfold scN. pose proof (toZ_range Fr e) as R. apply Z2N.inj_lt; [apply R|discriminate|]. apply R.
  - discriminate A.
  - apply H. unfold scN in A. pose proof (toZ_range Fr e) as R. rewrite <- (Z2N.id (toZ e)) by apply R. now rewrite A.
Qed.
Notation native_aggregation2 := (verify_aggregation_proofs_in_chip Fr BN 2 1 pair_decode one_decode (pstate Fr (mock_chip Fr))
  (native_pt Fr Fq BN affine) (native_sc Fr) (native_sqz Fr (two_spec Fr) 1)).
Lemma mini_case v e a0 b0 : mini_run v e a0 b0 ->
  slopes_given 2 1 pair_decode one_decode (two_spec Fr) 1 (two_init Fr) G12 (fun _ => 2%nat) (minis v e) /\
  exists a b x y, toZ a = a0 /\ toZ b = b0 /\ toZ x = v /\
    native_aggregation2 (map (circuit_proof_of Fr BN _ (start (two_init Fr))) (minis v e)) (start (two_init Fr)) = Some (times one_two (a : E1), times one_two (b : E1), [x], [[y]]) /\
    counts Fr BN 2 1 pair_decode one_decode (pstate Fr (mock_chip Fr)) (native_pt Fr Fq BN affine) (native_sc Fr) (native_sqz Fr (two_spec Fr) 1) (fun _ => 2%nat) 1
      (all_proofs Fr BN _ (map (circuit_proof_of Fr BN _ (start (two_init Fr))) (minis v e))).
Proof.
  intro H. destruct (exponents (mini_calls E1 (f1 : Fr)) _) as [s|] eqn:E; [|contradiction].
  destruct (exponents_ok _ _ _ s E) as [A (b' & B & R)]. rewrite mini_on_calls in A, B. split.
  - intros r calls n Ec. unfold slopes_given. pose proof (mini_generated_calls BN G12 v e) as Ec'. unfold mini_generated in Ec'. rewrite Ec' in Ec. injection Ec as _ <- _.
    rewrite mini_given_instances, mini_given_bytes. exact A.
  - clear A E. destruct (mini_end_ok v a0 b0 s H) as [(a & b & x & y & Ea & Eb & Ex & Ey & Ha & Hb & Hx) (Ei & t & u & Et & Eu)]. clear H.
    exists a, b, x, (times one_two y). split; [exact Ha|]. split; [exact Hb|]. split; [exact Hx|].
    assert (HG : forall c, nth_error (map (circuit_proof_of Fr BN _ (start (two_init Fr))) (minis v e)) 0 = Some c -> cp_generator c = G12) by (intros c Hc; injection Hc as <-; reflexivity).
    apply (proj2 (C49_aggregation Fr BN 2 1 pair_decode one_decode ltac:(auto) _ _ _ _ G12 (fun _ => 2%nat) _ (start (two_init Fr)) [] [] _ _ _ _ HG)).
    exists 53%nat, 66%nat, [0%nat], [[5%nat]], (mini_calls BN G12), 67%nat, b'.
    split; [apply mini_native_calls|]. rewrite mini_instances, mini_transcripts. split; [exact B|].
    split; [exact (f_val_p Fr BN one_two _ _ s b' _ _ R Ea)|]. split; [exact (f_val_p Fr BN one_two _ _ s b' _ _ R Eb)|].
    split; [exact (f_mapM_s Fr BN one_two _ _ s b' _ _ R Ex)|]. split.
    + cbn [mapM]. rewrite (f_val_p Fr BN one_two _ _ s b' _ _ R Ey). reflexivity.
    + destruct R as (_ & Ri & Rt). split; [rewrite Ri; exact Ei|]. rewrite Et in Rt. revert Rt. generalize (c_trs b'). intros trs Rt. inversion Rt as [|? t' ? l' _ Rt']; subst. inversion Rt' as [|? u' ? l'' [Ru _] Rt'']; subst. inversion Rt''; subst.
      cbn [skipn]. constructor; [|constructor]. unfold read_point, rbind, read_decode. rewrite <- Ru, Eu. reflexivity.
Qed.
Lemma mini_circuit v e a0 b0 : mini_run v e a0 b0 -> a0 <> 0 -> b0 <> 0 -> exists ns column notes c',
  x_synthesize Fr Fq BN affine 2 1 pair_decode one_decode (two_spec Fr) 1 (two_init Fr) G12 (fun _ => 2%nat) (minis v e) [] (ctx0 Fr) = Some ((column, notes), c') /\ sat (adv c') c' /\
  flags_boolean (adv c') notes /\ divisors_nonzero (adv c') notes /\ canonical (adv c') notes /\ map (fun a => adv c' (av_cell a)) column = ns /\
  map toZ ns = words (Curve.smul (Z.to_N a0) (G Fq)) ++ words (Curve.smul (Z.to_N b0) (G Fq)) ++ [v].
Proof.
  intros Hr Za Zb. destruct (mini_case v e a0 b0 Hr) as [Hs (a & b & x & y & Ha & Hb & Hx & En & Hc)]. clear Hr.
  assert (Na : affine (times one_two (a : E1)) <> Inf) by (apply mini_not_inf; rewrite Ha; exact Za).
  assert (Nb : affine (times one_two (b : E1)) <> Inf) by (apply mini_not_inf; rewrite Hb; exact Zb).
  destruct (final_pair_to_instances Fr Fq (affine (times one_two (a : E1))) (affine (times one_two (b : E1))) [x]) as [ns|] eqn:Ef.
  2: { exfalso. destruct (affine (times one_two (a : E1))); [congruence|]. destruct (affine (times one_two (b : E1))); [congruence|discriminate Ef]. }
  destruct (C52_circuit_complete_partial 2 1 ltac:(auto) pair_decode one_decode (two_spec Fr) 1 (two_wf Fr) (two_init Fr) eq_refl G12 (fun _ => 2%nat) (minis v e) [] _ _ _ _ ns
    ltac:(intros g Hg; injection Hg as <-; reflexivity) En Ef Hc (Forall_nil _) Hs) as (column & notes & c' & E1 & E2 & E3 & E4 & E5 & E6).
  exists ns, column, notes, c'. do 6 (split; [assumption|]). apply C40_native in Ef. destruct Ef as (_ & _ & ->).
  rewrite !(aff_times Fr Fq fr_n fq_n one_two one_two_G). unfold scN. rewrite Ha, Hb. cbn [map]. now rewrite Hx.
Qed.
(** All conditions of the theorem hold, and so does its conclusion; the public inputs are
    those for 3 and 15 times the generator and the instance 5. *)
Example C52_example_circuit : exists ns column notes c',
  x_synthesize Fr Fq BN affine 2 1 pair_decode one_decode (two_spec Fr) 1 (two_init Fr) G12 (fun _ => 2%nat) (minis 5 0) [] (ctx0 Fr) = Some ((column, notes), c') /\ sat (adv c') c' /\
  flags_boolean (adv c') notes /\ divisors_nonzero (adv c') notes /\ canonical (adv c') notes /\ map (fun a => adv c' (av_cell a)) column = ns /\
  map toZ ns = words (Curve.smul 3 (G Fq)) ++ words (Curve.smul 15 (G Fq)) ++ [5].
Proof. exact (mini_circuit 5 0 3 15 mini_run5 ltac:(discriminate) ltac:(discriminate)). Qed.
