(** Property C51: the constraints of the aggregation circuit enforce the verification of
    some proofs for the circuits it was built for.

    The circuit is synthesised from proofs; a prover may assign any values to its cells.
    [x_synthesize] runs the code that lays the circuit out ([synthesize] of
    verify_circuit.rs) and returns the cells tied to the public inputs; [sat w c] says that
    the assignment [w] satisfies all constraints laid out. *)
From Coq Require Import String ZArith NArith Arith Lia List Bool.
From Verif Require Import Util Algebra ListFacts Schema Plonk Poseidon PoseidonSpec BuildParams.
From Verif Require Import PField Gate GateProofs GateOps GateExtra Integer Bn254 Bn254Prime IntegerFacts IntegerSound IntegerHistorySound IntegerHistory
  CircuitCheck Curve CurveAssoc Bn254Curve Ecc EccSound EccScalar EccMul EccHistory CurveOrder CurveMod CircuitSponge Calls VerifierCalls VerifierCallsTop
  VerifyCircuit VerifyCircuitProofs Properties_Integer Properties_Ecc Properties_Circuit CircuitRun CircuitRunSpec CircuitRunProofs CallKinds CircuitRunTop.
Import ListNotations.
Local Open Scope Z_scope.
Local Notation fr_n := (eq_refl : pf_n Fr = fr_mod).
Local Notation fq_n := (eq_refl : pf_n Fq = fq_mod).
Notation BN := (G1 Fr Fq fr_n fq_n).
Notation affine := (g1_affine Fr Fq fr_n fq_n).
Notation start init := (mkP (A := mock_chip Fr) init []).

(** ** What the constraints leave open

    The layout notes the points it reads from proofs, the points whose coordinates a
    transcript absorbs, and the divisors. *)
(** The flag "is the identity" of a point read from a proof is 0 or 1 (C15: it is not
    constrained to be). *)
Definition flags_boolean (w : asg Fr) (notes : list (note Fr)) : Prop :=
  forall p, In (NRead p) notes -> w (av_cell (pt_z p)) = f0 \/ w (av_cell (pt_z p)) = f1.
(** No division by zero (C04: the quotient of 0 by 0 is free). *)
Definition divisors_nonzero (w : asg Fr) (notes : list (note Fr)) : Prop :=
  forall b, In (NDiv b) notes -> w (av_cell b) <> f0.
(** The integers absorbed for a point are its coordinates below the modulus, 0 and 0 for
    the identity (C12: the limbs may hold another integer congruent to the coordinate). *)
Definition canonical (w : asg Fr) (notes : list (note Fr)) : Prop :=
  forall p, In (NAbsorb p) notes -> integer w (pt_x p) < fq_mod /\ integer w (pt_y p) < fq_mod /\
    (w (av_cell (pt_z p)) = f1 -> integer w (pt_x p) = 0 /\ integer w (pt_y p) = 0).

(** The cell or assigned point [x] has the value [v]. *)
Definition agrees (w : asg Fr) (x : xval Fr) (v : cval Fr BN) : Prop :=
  match x, v with XS a, VS s => w (av_cell a) = s | XP p, VP P => represents w p (affine P) | _, _ => False end.

Lemma integer_pos (w : asg Fr) a : 0 <= integer w a.
Proof.
  unfold integer, limb. pose proof (toZ_range Fr (w (av_cell (l0 a)))). pose proof (toZ_range Fr (w (av_cell (l1 a)))).
  pose proof (toZ_range Fr (w (av_cell (l2 a)))). pose proof (toZ_range Fr (w (av_cell (l3 a)))). lia.
Qed.
Lemma eqn_refl (N : PF) (x : N) : eqn N x x = true.
Proof. unfold eqn. now destruct feq_dec. Qed.
Lemma eqn_eq (N : PF) (x y : N) : eqn N x y = true -> x = y.
Proof. unfold eqn. now destruct feq_dec. Qed.

Lemma exact_note (w : asg Fr) notes : flags_boolean w notes -> divisors_nonzero w notes -> canonical w notes -> Forall (note_ok Fr Fq exact w) notes.
Proof.
  intros Hf Hd Hc. apply Forall_forall. intros [p|p|b] Hn; [exact (Hf p Hn)| |exact (Hd b Hn)].
  destruct (Hc p Hn) as (Lx & Ly & Z). intros P [(x & y & z & [Vx _] & [Vy _] & Bz & -> & _) _].
  pose proof (integer_pos w (pt_x p)) as Px. pose proof (integer_pos w (pt_y p)) as Py. change (iv w (pt_x p)) with (integer w (pt_x p)). change (iv w (pt_y p)) with (integer w (pt_y p)).
  unfold holds_bit in Bz. destruct z.
  - destruct (Z Bz) as [-> ->]. unfold exact. cbn [fst snd coordinates]. now rewrite (ofZ_0 Fr), eqn_refl.
  - unfold exact. cbn [fst snd coordinates]. unfold fv in Vx, Vy. change (iv w (pt_x p)) with (integer w (pt_x p)) in Vx. change (iv w (pt_y p)) with (integer w (pt_y p)) in Vy. rewrite <- Vx, <- Vy.
    rewrite !(toZ_small Fq) by (split; assumption). now rewrite !eqn_refl.
Qed.
Lemma in_seq64 k : 0 <= k < 64 -> In (Z.to_nat k) (seq 0 64).
Proof. intro H. apply in_seq. lia. Qed.
Lemma stands (z m k x : Z) : 0 < m -> k = z / m -> x = z mod m -> z = x + k * m.
Proof. intros Hm -> ->. pose proof (Z.div_mod z m). lia. Qed.
Lemma quotient_range z m b : 0 < m -> 0 <= z -> z < b * m -> 0 <= z / m < b.
Proof. intros Hm Hz Hb. split; [apply Z.div_pos; lia|apply Z.div_lt_upper_bound; lia]. Qed.
Lemma stands_for_int (w : asg Fr) a (x : Fq) : holds_int Fr Fq w a x -> stands_for (ofZ (iv w a) : Fr) x = true.
Proof.
  intros [Vx [[[B0 [B1 [B2 B3]]] _] Ho]].
  pose proof (integer_pos w a) as Px. unfold fv in Vx. change (iv w a) with (integer w a) in *.
  assert (Hz : integer w a < 64 * fq_mod).
  { unfold integer, limb. unfold zv in *. assert (K : Z.of_nat (overflows a) + 1 <= 32) by lia.
    assert (K0 : 64 * fq_mod - 32 * 2 ^ 254 > 0) by reflexivity. set (t := 64 * fq_mod) in *. clearbody t.
    set (o := Z.of_nat (overflows a) + 1) in *. clearbody o. 
    assert (o * (2 ^ 68 - 1) <= 32 * (2 ^ 68 - 1)) by (apply Z.mul_le_mono_nonneg_r; lia). assert (o * (2 ^ 50 - 1) <= 32 * (2 ^ 50 - 1)) by (apply Z.mul_le_mono_nonneg_r; lia). lia. }
  assert (Hq := quotient_range (integer w a) fq_mod 64 eq_refl Px Hz).
  unfold stands_for. apply existsb_exists. exists (Z.to_nat (integer w a / fq_mod)). split; [now apply in_seq64|].
  rewrite Z2Nat.id by apply Hq. rewrite <- Vx, (toZ_ofZ Fq). change (pf_n Fq) with fq_mod.
  rewrite <- (stands (integer w a) fq_mod _ _ eq_refl eq_refl eq_refl). apply eqn_refl.
Qed.
Lemma loose_note (w : asg Fr) notes : flags_boolean w notes -> divisors_nonzero w notes -> Forall (note_ok Fr Fq loose w) notes.
Proof.
  intros Hf Hd. apply Forall_forall. intros [p|p|b] Hn; [exact (Hf p Hn)| |exact (Hd b Hn)].
  intros P [(x & y & z & Vx & Vy & Bz & -> & _) _]. destruct z; [reflexivity|]. unfold loose. cbn [fst snd].
  now rewrite (stands_for_int _ _ _ Vx), (stands_for_int _ _ _ Vy).
Qed.

Section C51.
  (** The encodings of points and scalars in proofs; every point and scalar has one. *)
  Variables (PT SC : nat).
  Hypothesis Hpos : (1 <= PT)%nat.
  Variable pt_decode : list Z -> option BN.
  Variable sc_decode : list Z -> option Fr.
  Hypothesis pt_enc : forall P, exists bs, List.length bs = PT /\ pt_decode bs = Some P.
  Hypothesis sc_enc : forall s, exists bs, List.length bs = SC /\ sc_decode bs = Some s.
  (** Constants of the sponge of proper sizes. *)
  Variable sp : pspec Fr.
  Variable RATE : nat.
  Hypothesis wf : wf_spec sp RATE.
  Variable init : list Fr.
  Hypothesis L0 : List.length init = S RATE.
  Variable generator : BN.
  Notation sponge := (pstate Fr (mock_chip Fr)).
  Notation given := (given Fr (kzg Fr BN) (key Fr BN)).
  Notation layout := (x_synthesize Fr Fq BN affine PT SC pt_decode sc_decode sp RATE init generator).
  Notation lay_out calls inst bytes :=
    (ts <- bmap (x_transcript Fr init) bytes ;; x_calls Fr Fq BN affine PT SC pt_decode sc_decode sp RATE generator calls (mkX [] inst ts)).
  (** the native verifier with the native transcript *)
  Notation native_run := (run_calls Fr BN PT SC pt_decode sc_decode sponge (native_pt Fr Fq BN affine) (native_sc Fr) (native_sqz Fr sp RATE) generator).
  Notation native_final_pair := (calc_verify_circuit_final_pair Fr Fq BN PT SC pt_decode sc_decode sponge
    (native_pt Fr Fq BN affine) (native_sc Fr) (native_sqz Fr sp RATE) (start init) affine).
  (** the native verifier with hints for its transcripts *)
  Notation hinted_aggregation := (verify_aggregation_proofs_in_chip Fr BN PT SC pt_decode sc_decode (hinted Fr)
    (hinted_pt Fr Fq BN affine loose) (hinted_sc Fr) (hinted_sqz Fr sp RATE)).
  Notation with_hints := (fun t : hinted Fr => exists hints, t = Some (hints, start init)).
  Implicit Types (w : asg Fr) (gs : list given).

  Let st_native (l : list (Fr * Fr)) (h : sponge) : sponge := h.
  Lemma native_pt_ok e l h (P : BN) : exact e (affine P) = true -> native_pt Fr Fq BN affine (st_native (e :: l) h) P = st_native l (update Fr (mock_chip Fr) h [fst e; snd e]).
  Proof. intro H. unfold exact in H. apply andb_true_iff in H. destruct H as [H1 H2]. apply eqn_eq in H1, H2. unfold native_pt, st_native. now rewrite <- H1, <- H2. Qed.
  Let st_hinted (l : list (Fr * Fr)) (h : sponge) : hinted Fr := Some (l, h).
  Lemma hinted_pt_ok e l h (P : BN) : loose e (affine P) = true -> hinted_pt Fr Fq BN affine loose (st_hinted (e :: l) h) P = st_hinted l (update Fr (mock_chip Fr) h [fst e; snd e]).
  Proof. intro H. unfold hinted_pt, st_hinted. now rewrite H. Qed.
  Lemma hinted_sqz_ok l h c h' : squeeze Fr (mock_chip Fr) sp (S RATE) RATE h = Some (c, h') -> hinted_sqz Fr sp RATE (st_hinted l h) = Some (c, st_hinted l h').
  Proof. intro H. unfold hinted_sqz, st_hinted. now rewrite H. Qed.

  (** ** Any list of chip calls

      A satisfying assignment gives the calls the values they have in a native run, on some
      instance values and some proof bytes. *)
  Theorem C51_calls_sound_partial w calls inst bytes s notes c' :
    lay_out calls inst bytes (ctx0 Fr) = Some ((s, notes), c') -> sat w c' ->
    flags_boolean w notes -> divisors_nonzero w notes -> canonical w notes ->
    exists inst' bytes' s', List.length bytes' = List.length bytes /\
      native_run calls (mkC [] inst' (map (fun b => mkTr b (start init)) bytes')) = Some s' /\ Forall2 (agrees w) (x_vals s) (c_vals s').
  Proof.
    intros E Hs Hf Hd Hc.
    destruct (laid_out_snd Fr Fq fr_n fq_n PT SC pt_decode sc_decode pt_enc sc_enc sp RATE wf init L0 generator exact sponge st_native
      (native_pt Fr Fq BN affine) (native_sc Fr) (native_sqz Fr sp RATE) native_pt_ok (fun _ _ _ => eq_refl) (fun _ _ _ _ H => H) w calls inst bytes (ctx0 Fr) _ c' E Hs) as [_ K].
    destruct (K (exact_note w notes Hf Hd Hc)) as (inst' & xs & s' & L & R & V). exists inst', (map fst xs), s'.
    split; [now rewrite map_length|]. split; [rewrite map_map; exact R|]. cbn [fst] in V. clear - V.
    eapply Forall2_weaken; [|exact V]. intros [a|p] [v|P] H; try exact H. cbn in H |- *. now apply represents_iff.
  Qed.

  (** ** The whole circuit

      The public inputs of a satisfying assignment are those of a final pair (up to the signs
      of its points, C40) and of instances with which native verification of some proofs for
      the same circuits ends. *)
  Theorem C51_circuit_sound_partial w nw gs coherent column notes c' (P Q : point Fq) ins ns :
    (forall g, nth_error gs 0 = Some g -> VerifyCircuit.k_generator _ _ (g_params g) = generator) ->
    layout nw gs coherent (ctx0 Fr) = Some ((column, notes), c') -> sat w c' ->
    flags_boolean w notes -> divisors_nonzero w notes -> canonical w notes ->
    on_curve b3 P -> on_curve b3 Q -> final_pair_to_instances Fr Fq P Q ins = Some ns -> map (fun a => w (av_cell a)) column = ns ->
    exists gs' P' Q', Forall2 same_but_proofs gs gs' /\ native_final_pair gs' = Some (P', Q', ins) /\ (P' = P \/ P' = pneg P) /\ (Q' = Q \/ Q' = pneg Q).
  Proof.
    intros Hg E Hs Hf Hd Hc OP OQ En Ec.
    destruct (x_synthesize_snd Fr Fq fr_n fq_n PT SC Hpos pt_decode sc_decode pt_enc sc_enc sp RATE wf init L0 generator exact sponge st_native
      (native_pt Fr Fq BN affine) (native_sc Fr) (native_sqz Fr sp RATE) native_pt_ok (fun _ _ _ => eq_refl) (fun _ _ _ _ H => H) w nw gs coherent Hg (ctx0 Fr) _ c' E Hs) as [_ K].
    destruct (K (exact_note w notes Hf Hd Hc)) as (p1 & p2 & cells & c1 & c2 & (cs & hm & wx & wg & advices & S1 & Ea & R1 & R2 & _) & E2 & Hs2). cbn [fst snd] in *.
    destruct (C40_bound_up_to_sign w p1 p2 cells c1 column c2 (affine wx) (affine wg) P Q ins ns E2 Hs2
      (proj2 (represents_iff w p1 _) R1) (proj2 (represents_iff w p2 _) R2) OP OQ En Ec) as (HP & HQ & Ei).
    assert (X : exists gs', Forall2 same_but_proofs gs gs' /\ map (circuit_proof_of Fr BN sponge (start init)) gs' = cs).
    { clear - S1. induction S1 as [|g c gs cs (H1 & H2 & H3 & H4 & H5) _ IH]; [exists []; split; [constructor|reflexivity]|].
      destruct IH as (gs' & I1 & I2). destruct g as [nm pr vk ps]. destruct c as [cvk ccols cgl cg cps]. cbn in H1, H2, H3, H4, H5. subst cvk ccols cgl cg.
      assert (Y : exists ps', Forall2 (fun p p' : given_proof Fr => gp_key p' = gp_key p /\ shape (gp_instances p') = shape (gp_instances p)) ps ps' /\
        map (fun p => mkPD (gp_instances p) (mkTr (gp_bytes p) (start init)) (gp_key p)) ps' = cps).
      { clear - H5. induction H5 as [|p d ps ds (A1 & A2 & hints & A3) _ IH]; [exists []; split; [constructor|reflexivity]|].
        destruct IH as (ps' & I1 & I2). destruct d as [di [dr dh] dk]. cbn in A1, A2, A3. exists (GP di dr dk :: ps'). split; [constructor; [split; assumption|exact I1]|].
        cbn [map gp_instances gp_bytes gp_key]. rewrite I2. unfold st_native in A3. now rewrite A3. }
      destruct Y as (ps' & Y1 & Y2). exists (mkGiven nm pr vk ps' :: gs'). split; [constructor; [repeat split; exact Y1|exact I1]|].
      cbn [map]. rewrite I2. unfold circuit_proof_of. cbn [g_vk g_params g_proofs]. now rewrite Y2. }
    destruct X as (gs' & X1 & X2). exists gs', (affine wx), (affine wg). split; [exact X1|]. split; [|split; [exact HP|exact HQ]].
    unfold calc_verify_circuit_final_pair. rewrite X2, <- Ei. unfold st_native in Ea. now rewrite Ea.
  Qed.

  (** Without the condition on the absorbed integers: the verification may be one in which the
      transcripts absorb, for a coordinate, the integer plus a multiple of the modulus. *)
  Theorem C51_circuit_sound_any_integers_partial w nw gs coherent column notes c' (P Q : point Fq) ins ns :
    (forall g, nth_error gs 0 = Some g -> VerifyCircuit.k_generator _ _ (g_params g) = generator) ->
    layout nw gs coherent (ctx0 Fr) = Some ((column, notes), c') -> sat w c' -> flags_boolean w notes -> divisors_nonzero w notes ->
    on_curve b3 P -> on_curve b3 Q -> final_pair_to_instances Fr Fq P Q ins = Some ns -> map (fun a => w (av_cell a)) column = ns ->
    exists cs hints wx wg advices, Forall2 (serves with_hints) gs cs /\
      hinted_aggregation cs (Some (hints, start init)) = Some (wx, wg, ins, advices) /\
      (affine wx = P \/ affine wx = pneg P) /\ (affine wg = Q \/ affine wg = pneg Q) /\
      Forall (fun c => exists l a l' b, nth_error advices (fst (fst c)) = Some l /\ nth_error l (snd (fst c)) = Some a /\
        nth_error advices (fst (snd c)) = Some l' /\ nth_error l' (snd (snd c)) = Some b /\ (affine a = affine b \/ affine a = Inf \/ affine b = Inf)) coherent.
  Proof.
    intros Hg E Hs Hf Hd OP OQ En Ec.
    destruct (x_synthesize_snd Fr Fq fr_n fq_n PT SC Hpos pt_decode sc_decode pt_enc sc_enc sp RATE wf init L0 generator loose (hinted Fr) st_hinted
      (hinted_pt Fr Fq BN affine loose) (hinted_sc Fr) (hinted_sqz Fr sp RATE) hinted_pt_ok (fun _ _ _ => eq_refl) hinted_sqz_ok w nw gs coherent Hg (ctx0 Fr) _ c' E Hs) as [_ K].
    destruct (K (loose_note w notes Hf Hd)) as (p1 & p2 & cells & c1 & c2 & (cs & hm & wx & wg & advices & S1 & Ea & R1 & R2 & Hco) & E2 & Hs2). cbn [fst snd] in *.
    destruct (C40_bound_up_to_sign w p1 p2 cells c1 column c2 (affine wx) (affine wg) P Q ins ns E2 Hs2
      (proj2 (represents_iff w p1 _) R1) (proj2 (represents_iff w p2 _) R2) OP OQ En Ec) as (HP & HQ & Ei).
    exists cs, hm, wx, wg, advices. split; [exact S1|]. split; [rewrite <- Ei; exact Ea|]. split; [exact HP|]. split; [exact HQ|exact Hco].
  Qed.
End C51.
Print Assumptions C51_calls_sound_partial.
Print Assumptions C51_circuit_sound_partial.
Print Assumptions C51_circuit_sound_any_integers_partial.
(** ** Example: a point and a scalar are read, a challenge is drawn, and so on *)
Definition fr (z : Z) : Fr := ofZ z.
Definition tiny_spec : pspec Fr := mkSpec Fr 2 [[fr 1; fr 2]; [fr 3; fr 4]] [] [] [[fr 2; fr 1]; [fr 1; fr 2]] [[fr 1; fr 2]; [fr 3; fr 1]] [].
Definition tiny_init : list Fr := [fr 64; fr 0].
Lemma tiny_wf : wf_spec tiny_spec 1.
Proof. unfold wf_spec, tiny_spec. cbn [sp_r_f sp_start sp_partial sp_end sp_mds sp_pre_sparse_mds sp_sparse]. repeat split; try discriminate; try (repeat constructor; reflexivity); try lia. Qed.
(** a point as two numbers, the first negative for the identity; a scalar as one number *)
Definition pair_decode (bs : list Z) : option BN :=
  match bs with
  | [x; y] => if x <? 0 then Some (m0 : BN) else lift_pt Fq (ofZ 3) (Aff (ofZ x) (ofZ y))
  | _ => None
  end.
Definition one_decode (bs : list Z) : option Fr := match bs with [z] => Some (ofZ z) | _ => None end.
Lemma pair_enc (P : BN) : exists bs, List.length bs = 2%nat /\ pair_decode bs = Some P.
Proof.
  destruct (affine P) as [|x y] eqn:E.
  - exists [-1; 0]. split; [reflexivity|]. unfold pair_decode. change (-1 <? 0) with true. cbv iota. f_equal. apply cpt_eq. symmetry. exact E.
  - exists [toZ x; toZ y]. split; [reflexivity|]. unfold pair_decode. replace (toZ x <? 0) with false by (symmetry; apply Z.ltb_ge, (toZ_range Fq)).
    rewrite !(ofZ_toZ Fq). apply lift_pt_iff. exact E.
Qed.
Lemma one_enc (s : Fr) : exists bs, List.length bs = 1%nat /\ one_decode bs = Some s.
Proof. exists [toZ s]. split; [reflexivity|]. unfold one_decode. f_equal. apply ofZ_toZ. Qed.

Definition notes_okb (w : asg Fr) (notes : list (note Fr)) : bool :=
  forallb (fun n => match n with
                    | NRead p => feqbN (w (av_cell (pt_z p))) f0 || feqbN (w (av_cell (pt_z p))) f1
                    | NAbsorb p => (integer w (pt_x p) <? fq_mod) && (integer w (pt_y p) <? fq_mod) && feqbN (w (av_cell (pt_z p))) f0
                    | NDiv b => negb (feqbN (w (av_cell b)) f0)
                    end) notes.
Lemma notes_okb_ok w notes : notes_okb w notes = true -> flags_boolean w notes /\ divisors_nonzero w notes /\ canonical w notes.
Proof.
  unfold notes_okb. rewrite forallb_forall. intro H. split; [|split].
  - intros p Hp. specialize (H _ Hp). cbn in H. apply orb_true_iff in H. destruct H as [H|H]; apply feqbN_ok in H; auto.
  - intros b Hb. specialize (H _ Hb). cbn in H. apply negb_true_iff in H. now apply feqbN_no in H.
  - intros p Hp. specialize (H _ Hp). cbn [negb] in H. apply andb_true_iff in H. destruct H as [H H3]. apply andb_true_iff in H. destruct H as [H1 H2].
    apply feqbN_ok in H3. apply Z.ltb_lt in H1, H2. split; [exact H1|]. split; [exact H2|]. intro F. exfalso. apply f1_f0. congruence.
Qed.
Definition sample_generator : BN := m0.
Notation sample_layout calls inst bytes :=
  (ts <- bmap (x_transcript Fr tiny_init) bytes ;; x_calls Fr Fq BN affine 2 1 pair_decode one_decode tiny_spec 1 sample_generator calls (mkX [] inst ts)).
Definition sample_calls : list (call Fr BN) := [CReadPoint 0; CSqueeze 0; CReadScalar 0; CMul 1 2; CConst (fr 5); CDiv 3 4; Calls.CInstance; CCommonScalar 0 6].
Example C51_example_sponge : wf_spec tiny_spec 1 /\ List.length tiny_init = 2%nat.
Proof. split; [exact tiny_wf|reflexivity]. Qed.
Example C51_example_encodings : (forall P, exists bs, List.length bs = 2%nat /\ pair_decode bs = Some P) /\ (forall s, exists bs, List.length bs = 1%nat /\ one_decode bs = Some s).
Proof. split; [exact pair_enc|exact one_enc]. Qed.
Example C51_example_calls : exists (w : asg Fr) s notes c', sample_layout sample_calls [fr 9] [[1; 2; 7]] (ctx0 Fr) = Some ((s, notes), c') /\ sat w c' /\
  flags_boolean w notes /\ divisors_nonzero w notes /\ canonical w notes /\ List.length notes = 3%nat /\ List.length (x_vals s) = 7%nat.
Proof.
  assert (H : runs (sample_layout sample_calls [fr 9] [[1; 2; 7]]) (fun w r => notes_okb w (snd r) && (List.length (snd r) =? 3)%nat && (List.length (x_vals (fst r)) =? 7)%nat) = true) by (vm_compute; reflexivity).
  apply runs_ok in H. destruct H as ([s notes] & c & E & S & T). cbn [fst snd] in T. apply andb_true_iff in T. destruct T as [T T3]. apply andb_true_iff in T. destruct T as [T1 T2].
  apply Nat.eqb_eq in T2, T3. destruct (notes_okb_ok _ _ T1) as (A & B & C). exists (adv c), s, notes, c. auto 10.
Qed.

(** ** Without canonical integers the statement is false

    The prover puts the integer 1 + p into the limbs of the x coordinate of (1, 2): all
    constraints hold, the point is (1, 2), but the challenge is not the one drawn natively
    after (1, 2). *)
Definition assign_other : B Fr (apoint Fr) :=
  x <- assign_limbs_of (1 + fq_mod) ;;
  y <- assign_w (ofZ 2 : Fq) ;;
  z <- assign (f0 : Fr) ;;
  b <- int_assign_constant (curve_b Fq) ;;
  yy <- int_square Fq y ;;
  let '(y2, y) := yy in
  xx <- int_square Fq x ;;
  let '(x2, x) := xx in
  xxx <- int_mul Fq x2 x ;;
  let '(x3, _, x) := xxx in
  right <- int_add Fq x3 b ;;
  eq <- int_is_equal Fq y2 right ;;
  eq_or_identity <- or_ eq z ;;
  assert_true eq_or_identity ;;;
  ret (AP x y z None).
Definition attack : B Fr unit :=
  t <- x_transcript Fr tiny_init [] ;;
  p <- assign_other ;;
  t <- x_common_point p t ;;
  _ <- squeeze Fr (circuit_chip Fr) tiny_spec 2 1 (t_hash t) ;;
  ret tt.
Notation sample_run := (run_calls Fr BN 2 1 pair_decode one_decode (pstate Fr (mock_chip Fr)) (native_pt Fr Fq BN affine) (native_sc Fr) (native_sqz Fr tiny_spec 1) sample_generator).
Lemma read_squeeze_gen (F : Fld) (M : Mod F) PT SC pd sd St (upd_pt : St -> M -> St) (upd_sc : St -> F -> St) (sqz : St -> option (F * St)) g h0 inst bytes s' :
  run_calls F M PT SC pd sd St upd_pt upd_sc sqz g [CReadPoint 0; CSqueeze 0] (mkC [] inst (map (fun b => mkTr b h0) bytes)) = Some s' ->
  exists P c h, c_vals s' = [VP P; VS c] /\ sqz (upd_pt h0 P) = Some (c, h).
Proof.
  destruct bytes as [|b bytes]; [discriminate|]. cbn. unfold on_tr. cbn. unfold read_point, rbind, read_decode, common_point, rret. cbn.
  destruct (Nat.leb PT (List.length b)); [|discriminate]. destruct (pd (firstn PT b)) as [P|]; [|discriminate]. cbn.
  unfold squeeze_scalar. cbn. destruct (sqz (upd_pt h0 P)) as [[c h]|] eqn:E; [|discriminate]. cbn. intros [= <-]. exists P, c, h. split; [reflexivity|exact E].
Qed.
Lemma read_squeeze_inv (h0 : pstate Fr (mock_chip Fr)) inst bytes s' :
  sample_run [CReadPoint 0; CSqueeze 0] (mkC [] inst (map (fun b => mkTr b h0) bytes)) = Some s' ->
  exists P c h, c_vals s' = [VP P; VS c] /\ native_sqz Fr tiny_spec 1 (native_pt Fr Fq BN affine h0 P) = Some (c, h).
Proof. apply read_squeeze_gen. Qed.
Definition one_two : BN := exist _ (Aff (q 1) (q 2)) eq_refl.
Theorem C51_calls_sound_refuted : exists (w : asg Fr) s notes c',
  sample_layout [CReadPoint 0; CSqueeze 0] [] [[1; 2]] (ctx0 Fr) = Some ((s, notes), c') /\ sat w c' /\ flags_boolean w notes /\ divisors_nonzero w notes /\
  forall inst' bytes' s', sample_run [CReadPoint 0; CSqueeze 0] (mkC [] inst' (map (fun b => mkTr b (start tiny_init)) bytes')) = Some s' ->
    ~ Forall2 (agrees w) (x_vals s) (c_vals s').
Proof.
  assert (H : fools (sample_layout [CReadPoint 0; CSqueeze 0] [] [[1; 2]]) attack (fun w r =>
   match native_sqz Fr tiny_spec 1 (native_pt Fr Fq BN affine (start tiny_init) one_two), x_vals (fst r), snd r with
   | Some (c, _), [XP p; XS a], [NRead p1; NAbsorb p2] =>
       feqbN (w (av_cell (pt_z p1))) f0 && feqbN (w (av_cell (pt_z p))) f0 && feqbN (element w (pt_x p)) (q 1) && feqbN (element w (pt_y p)) (q 2) && negb (feqbN (w (av_cell a)) c)
   | _, _, _ => false end) = true) by (vm_compute; reflexivity).
  apply fools_ok in H. destruct H as ([s notes] & c' & w & E & S & T). cbn [fst snd] in T. exists w, s, notes, c'. split; [exact E|]. split; [exact S|]. clear E S.
  destruct (native_sqz Fr tiny_spec 1 (native_pt Fr Fq BN affine (start tiny_init) one_two)) as [[c h]|] eqn:Ec; [|discriminate T].
  destruct (x_vals s) as [|[|p] [|[a|] [|]]]; try discriminate T. destruct notes as [|[p1| |] [|[|p2|] [|]]]; try discriminate T.
  rewrite !andb_true_iff in T. destruct T as ((((T1 & T2) & T3) & T4) & T5). apply feqbN_ok in T1, T2, T3, T4. apply negb_true_iff, feqbN_no in T5.
  split; [|split].
  - intros p' [[= <-]|[[=]|[]]]. left. exact T1.
  - intros b [[=]|[[=]|[]]].
  - intros inst' bytes' s' R V. destruct (read_squeeze_inv _ _ _ _ R) as (P & c1 & h1 & Ev & Es). rewrite Ev in V.
    assert (VP_ : agrees w (XP p) (VP P)) by now inversion V. assert (VS_ : agrees w (XS a) (VS c1)) by (inversion V; subst; now inversion H4).
    cbn in VP_, VS_. destruct VP_ as [(_ & _ & [[F _]|(_ & EP & _)]) _]; [apply f1_f0; congruence|].
    assert (EP' : P = one_two) by (apply cpt_eq; rewrite T3, T4 in EP; exact EP). rewrite EP', Ec in Es. injection Es as Es _. apply T5. rewrite VS_, Es. reflexivity.
Qed.
Print Assumptions C51_calls_sound_refuted.
