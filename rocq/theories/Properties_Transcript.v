(** Properties C26, C27: the sponge and the hash transcript. *)
From Coq Require Import ZArith Arith Bool Lia List.
From Verif Require Import Util Algebra PField Gate GateProofs GateOps GateExtra Bn254 Bn254Prime Curve Bn254Curve
  Bytes Poseidon PoseidonSpec PoseidonProofs PoseidonInst ShaTranscript ShaProofs.
Import ListNotations.
Local Open Scope Z_scope.

(** * C26: the sponge

    [history] (PoseidonSpec.v) runs a list of calls on lists of field elements: an
    update appends to the pending elements; a squeeze pads them with a 1 and zeros,
    absorbs them block by block and yields word 1 of the state.  All statements
    hold for every choice of round constants and matrices of the right shapes. *)

(** The native sponge computes the specification. *)
Theorem C26_native (F : Fld) (sp : pspec F) (RATE : nat) (init : list F) (hs : list (hcall F)) :
  wf_spec sp RATE -> length init = S RATE ->
  exists p, cbind (mock_chip F) (poseidon_new F (mock_chip F) init)
              (fun p => run_calls F (mock_chip F) sp (S RATE) RATE (map mock_call hs) p)
            = Some (fst (history sp RATE hs init []), p).
Proof. intros W L. now apply mock_history. Qed.

(** In circuit: every satisfying assignment gives the challenge cells the values
    that the specification computes from the values of the absorbed cells. *)
Theorem C26_circuit_sound (N : PF) (sp : pspec N) (RATE : nat) (init : list N) (cs : list (pcall N (circuit_chip N)))
    (w : asg N) (c c' : ctx N) r :
  wf_spec sp RATE -> length init = S RATE ->
  sponge_circuit sp RATE init cs c = Some (r, c') -> sat w c' ->
  map (fun a : aval N => w (av_cell a)) (fst r) = fst (history sp RATE (calls_under w cs) init []).
Proof. intros W L E S. exact (proj2 (sponge_circuit_snd N sp RATE W w init cs L _ _ _ E S)). Qed.

(** ... and the honest prover never aborts. *)
Theorem C26_circuit_complete (N : PF) (sp : pspec N) (RATE : nat) (init : list N) (cs : list (pcall N (circuit_chip N))) (c : ctx N) :
  wf_spec sp RATE -> length init = S RATE -> good c -> Forall (call_valid c) cs ->
  exists r c', sponge_circuit sp RATE init cs c = Some (r, c') /\ good c' /\
    map (@av_val N) (fst r) = fst (history sp RATE (calls_val cs) init []).
Proof.
  intros W L G V. destruct (sponge_circuit_cpl N sp RATE W c init cs L V G) as (r & c' & E & _ & G' & _ & H).
  exists r, c'. auto.
Qed.

(** Every pending element is absorbed exactly once, in order, followed by a 1 and
    fewer zeros than a block. *)
Lemma concat_chunks {X} k (l : list X) : (1 <= k)%nat -> concat (chunks k l) = l.
Proof.
  intro K. unfold chunks. assert (H : forall n (l : list X), (length l <= n)%nat -> concat (chunks_aux n k l) = l).
  { induction n as [|n IH]; intros l' L; cbn [chunks_aux]; [destruct l'; [reflexivity|cbn in L; lia]|].
    destruct l' as [|x l']; [reflexivity|]. cbn [concat]. rewrite IH; [apply firstn_skipn|]. rewrite skipn_length. cbn [length] in *. lia. }
  apply H. lia.
Qed.
Theorem C26_absorbed_once (F : Fld) (RATE : nat) (l : list F) : (1 <= RATE)%nat ->
  exists k, concat (blocks RATE l) = l ++ f1 :: repeat f0 k /\ (k < RATE)%nat /\
            Forall (fun b => length b = RATE) (blocks RATE l).
Proof.
  intro K. exists (RATE - 1 - length l mod RATE)%nat. unfold blocks. rewrite concat_chunks by exact K. split; [reflexivity|]. split; [lia|].
  assert (H : forall n (l : list F), (length l <= n)%nat -> Forall (fun b => length b = RATE) (chunks RATE (pad RATE l))).
  { induction n as [|n IH]; intros l' L.
    - destruct l'; [|cbn in L; lia]. rewrite chunks_small.
      + constructor; [|constructor]. unfold pad. cbn [length app]. rewrite repeat_length, Nat.mod_0_l by lia. lia.
      + discriminate.
      + unfold pad. cbn [length app]. rewrite repeat_length. lia.
    - destruct (Nat.ltb_spec (length l') RATE) as [Lt|Ge].
      + assert (E : length (pad RATE l') = RATE) by (unfold pad; rewrite app_length, Nat.mod_small by exact Lt; cbn [length]; rewrite repeat_length; lia).
        rewrite chunks_small; [constructor; [exact E|constructor]|unfold pad; destruct l'; discriminate|lia].
      + rewrite <- (firstn_skipn RATE l'). assert (La : length (firstn RATE l') = RATE) by (apply firstn_length_le; lia).
        rewrite (pad_app F RATE) by assumption. rewrite chunks_app by assumption. constructor; [exact La|]. apply IH. rewrite skipn_length. lia. }
  now apply (H (length l)).
Qed.

(** Between two squeezes different lists give different block sequences. *)
Theorem C26_padding_injective (F : Fld) (RATE : nat) (l l' : list F) : (1 <= RATE)%nat ->
  blocks RATE l = blocks RATE l' -> l = l'.
Proof.
  intros K E. destruct (C26_absorbed_once F RATE l K) as (k & C & _), (C26_absorbed_once F RATE l' K) as (k' & C' & _).
  rewrite E, C' in C. clear E C'. revert l' k k' C.
  assert (P : forall (k k' : nat) (x y : list F), x ++ repeat f0 k = y ++ repeat f0 k' -> forall a b, x = a ++ [f1] -> y = b ++ [f1] -> x = y).
  { induction k as [|k IH]; intros k' x y E a b Ex Ey; destruct k' as [|k'].
    - cbn in E. now rewrite !app_nil_r in E.
    - exfalso. cbn [repeat] in E. rewrite app_nil_r in E. rewrite repeat_cons, app_assoc in E. rewrite Ex in E. apply app_inj_tail in E as [_ E]. now apply (Field_theory.F_1_neq_0 (f_th F)).
    - exfalso. cbn [repeat] in E. rewrite app_nil_r in E. rewrite repeat_cons, app_assoc in E. rewrite Ey in E. apply app_inj_tail in E as [_ E]. now apply (Field_theory.F_1_neq_0 (f_th F)).
    - cbn [repeat] in E. rewrite !repeat_cons, !app_assoc in E. apply app_inj_tail in E as [E _]. eapply IH; eassumption. }
  intros l' k k' C. assert (A : forall (m : list F) n, m ++ f1 :: repeat f0 n = (m ++ [f1]) ++ repeat f0 n) by (intros; now rewrite <- app_assoc).
  rewrite !A in C. assert (E := P _ _ _ _ (eq_sym C) l l' eq_refl eq_refl). now apply app_inj_tail in E as [E _].
Qed.

(** Across squeezes this fails: the extra block that a squeeze absorbs can be
    imitated by absorbed elements, for every choice of constants. *)
Theorem C26_across_squeezes_refuted (F : Fld) (sp : pspec F) (RATE : nat) (s : list F) (a : F) : (2 <= RATE)%nat ->
  exists hs hs', hs <> hs' /\
    snd (history sp RATE hs s []) = snd (history sp RATE hs' s []) /\
    last (fst (history sp RATE hs s [])) f0 = last (fst (history sp RATE hs' s [])) f0.
Proof.
  intro K. exists [HUpdate [a]; HSqueeze; HSqueeze], [HUpdate (a :: f1 :: repeat f0 (RATE - 2)); HSqueeze].
  split; [discriminate|]. cbn [history app].
  assert (B1 : blocks RATE [a] = [a :: f1 :: repeat f0 (RATE - 2)]).
  { unfold blocks, pad. cbn [length app]. rewrite Nat.mod_small by lia. replace (RATE - 1 - 1)%nat with (RATE - 2)%nat by lia.
    apply chunks_small; [discriminate|]. cbn [length]. rewrite repeat_length. lia. }
  assert (B0 : blocks RATE ([] : list F) = [f1 :: repeat f0 (RATE - 1)]).
  { unfold blocks, pad. cbn [length app]. rewrite Nat.mod_0_l by lia. rewrite Nat.sub_0_r. apply chunks_small; [discriminate|]. cbn [length]. rewrite repeat_length. lia. }
  assert (B2 : blocks RATE (a :: f1 :: repeat f0 (RATE - 2)) = [a :: f1 :: repeat f0 (RATE - 2); f1 :: repeat f0 (RATE - 1)]).
  { unfold blocks. rewrite <- (app_nil_r (a :: f1 :: repeat f0 (RATE - 2))) at 1.
    rewrite pad_app by (cbn [length]; rewrite ?repeat_length; lia). rewrite chunks_app by (cbn [length]; rewrite ?repeat_length; lia).
    f_equal. exact B0. }
  unfold sponge. rewrite B0, B1, B2. cbn [fold_left fst snd last]. auto.
Qed.

(** A concrete specification over the scalar field: rate 2, two full rounds at
    each end, one partial round. *)
Definition toy_spec : pspec Fr :=
  let k (z : Z) : Fr := ofZ z in
  mkSpec Fr 4 [[k 1; k 2; k 3]; [k 4; k 5; k 6]; [k 7; k 8; k 9]] [k 10] [[k 11; k 12; k 13]]
    [[k 2; k 1; k 1]; [k 1; k 2; k 1]; [k 1; k 1; k 2]] [[k 1; k 2; k 3]; [k 3; k 1; k 2]; [k 2; k 3; k 1]]
    [([k 3; k 1; k 4], [k 1; k 5])].
Lemma toy_wf : wf_spec toy_spec 2.
Proof.
  unfold wf_spec, toy_spec. cbn. repeat split; try lia; try discriminate; repeat constructor.
Qed.
Definition toy_init : list Fr := [ofZ (2 ^ 64); ofZ 0; ofZ 0].
(** three cells, absorbed one and then two at a time, with a squeeze after each *)
Definition toy_cells : B Fr (list (aval Fr) * pstate Fr (circuit_chip Fr)) :=
  bind (assign (ofZ 5)) (fun a => bind (assign (ofZ 6)) (fun b => bind (assign (ofZ 7)) (fun c =>
    sponge_circuit toy_spec 2 toy_init [Update (A := circuit_chip Fr) [a]; Squeeze; Update (A := circuit_chip Fr) [b; c]; Squeeze]))).
Definition toy_history : list (hcall Fr) := [HUpdate [ofZ 5]; HSqueeze; HUpdate [ofZ 6; ofZ 7]; HSqueeze].
Example C26_example : exists r c',
  toy_cells (ctx0 Fr) = Some (r, c') /\ good c' /\ map (@av_val Fr) (fst r) = fst (history toy_spec 2 toy_history toy_init []).
Proof.
  assert (H : cpl (ctx0 Fr) toy_cells (fun r c' => map (@av_val Fr) (fst r) = fst (history toy_spec 2 toy_history toy_init []))).
  { unfold toy_cells. eapply cpl_bind; [apply assign_cpl|]. intros a c1 _ L1 _ [Va Ea].
    eapply cpl_bind; [apply assign_cpl|]. intros b c2 _ L2 _ [Vb Eb].
    eapply cpl_bind; [apply assign_cpl|]. intros d c3 _ L3 _ [Vd Ed].
    eapply cpl_conseq; [apply (sponge_circuit_cpl Fr toy_spec 2 toy_wf); [reflexivity|]|].
    - assert (Va3 : valid c3 a) by (eapply valid_le; [exact L3|eapply valid_le; [exact L2|exact Va]]).
      assert (Vb3 : valid c3 b) by (eapply valid_le; [exact L3|exact Vb]).
      apply Forall_cons; [apply Forall_cons; [exact Va3|apply Forall_nil]|]. apply Forall_cons; [exact I|].
      apply Forall_cons; [apply Forall_cons; [exact Vb3|apply Forall_cons; [exact Vd|apply Forall_nil]]|]. apply Forall_cons; [exact I|apply Forall_nil].
    - intros r c' _ _ _ [_ E]. rewrite E. unfold calls_val, toy_history. cbn [map]. rewrite Ea, Eb, Ed. exact eq_refl. }
  destruct (H (good_ctx0 Fr)) as (r & c' & E & _ & G & V). exists r, c'. auto.
Qed.

(** * C27: the hash transcript

    [H] is the digest, arbitrary except that it returns 32 bytes; [ident_ok] says
    whether the curve library gives the identity the coordinates (0, 0) (the
    theorems hold for both answers).  Scalars are in [Fr], coordinates in [Fq]. *)
Definition b3 : Fq := ofZ 3.
Definition digest (H : list Z -> list Z) : Prop := forall x, length (H x) = 32%nat.
Definition curve_points (os : list (wop Fr Fq)) : Prop :=
  Forall (fun o => match o with WPoint P | WCommonPoint P => on_curve b3 P | _ => True end) os.
Lemma fr_small : pf_n Fr <= 256 ^ 32. Proof. vm_compute. discriminate. Qed.
Lemma fq_small : pf_n Fq <= 256 ^ 32. Proof. vm_compute. discriminate. Qed.
Lemma b3_nz : b3 <> f0. Proof. intro E. apply (f_equal toZ) in E. vm_compute in E. discriminate. Qed.

(** Whatever the prover writes, the verifier reads back: same values, same
    challenges, same hash state, and it stops exactly at the end of what was written. *)
Theorem C27_round_trip (H : list Z -> list Z) (ident_ok : bool) (os : list (wop Fr Fq)) vs st out rest :
  curve_points os -> write_all H ident_ok os [] [] = Some (vs, st, out) ->
  read_all b3 H ident_ok (map counterpart os) [] (out ++ rest) = Some (vs, st, rest).
Proof.
  intros C E. destruct (write_all_read Fr Fq b3 H ident_ok fr_small fq_small b3_nz os [] [] vs st out C E) as (w & -> & R). apply R.
Qed.
(** The writer only fails on a point without coordinates. *)
Theorem C27_writer_total (H : list Z -> list Z) (os : list (wop Fr Fq)) :
  exists r, write_all H true os [] [] = Some r.
Proof.
  generalize ([] : list Z) at 1. generalize ([] : list Z) at 1. induction os as [|o os IH]; intros out st; [eexists; reflexivity|]. cbn [write_all].
  assert (S1 : exists v st1 out1, write_op H true o st out = Some (v, st1, out1)).
  { destruct o as [[|x y]|s|[|x y]|s|]; cbn [write_op]; unfold write_point, common_point, coordinates, write_scalar, squeeze_challenge; eauto. }
  destruct S1 as (v & st1 & out1 & ->). destruct (IH out1 st1) as [[[vs st2] out2] ->]. eexists. reflexivity.
Qed.
(** Whatever the verifier accepts is what a prover with these values writes: every
    value has a single accepted encoding. *)
Theorem C27_canonical (H : list Z -> list Z) (ident_ok : bool) (os : list (rop Fr Fq)) bytes vs st rest :
  Forall byte bytes -> read_all b3 H ident_ok os [] bytes = Some (vs, st, rest) ->
  exists wos out, map counterpart wos = os /\ write_all H ident_ok wos [] [] = Some (vs, st, out) /\ bytes = out ++ rest.
Proof.
  intros B E. destruct (read_all_write Fr Fq b3 H ident_ok os [] bytes vs st rest B E) as (wos & w & C & -> & W).
  exists wos, w. split; [exact C|]. split; [apply (W [])|reflexivity].
Qed.
(** Two histories that feed the same bytes to the digest are equal, unless one of
    them exhibits two inputs with the same digest, or a digest that equals the
    32-byte header of an absorbed value. *)
Theorem C27_injective (H : list Z -> list Z) (ident_ok : bool) (es es' : list (ev Fr Fq)) st :
  digest H -> Forall (ev_ok Fr Fq b3) es -> Forall (ev_ok Fr Fq b3) es' ->
  steps Fr Fq H ident_ok es [] = Some st -> steps Fr Fq H ident_ok es' [] = Some st ->
  es = es' \/ (exists x y, x <> y /\ H x = H y) \/ (exists x t, (t = 1 \/ t = 2) /\ H x = repeat 0 31 ++ [t]).
Proof. intros D O O' E E'. exact (steps_inj Fr Fq b3 H ident_ok fr_small fq_small b3_nz D (length es) es es' st (Nat.le_refl _) O O' E E'). Qed.

(** A run with a point, scalars and two challenges; the digest of the example
    mixes its input in a simple way. *)
Definition toy_hash (l : list Z) : list Z := le 32 (fold_left (fun a b => 31 * a + b) l 7).
Definition toy_ops : list (wop Fr Fq) :=
  [WCommonScalar (ofZ 9); WPoint (Aff (ofZ 1) (ofZ 2)); WSqueeze; WScalar (ofZ 12345); WCommonPoint (Aff (ofZ 1) (ofZ 2)); WSqueeze].
Definition toy_out : list Z := le 32 1 ++ le 32 2 ++ le 32 12345.
Example C27_example : digest toy_hash /\ curve_points toy_ops /\
  exists vs st, write_all toy_hash true toy_ops [] [] = Some (vs, st, toy_out) /\ Forall byte toy_out /\
    read_all b3 toy_hash true (map counterpart toy_ops) [] (toy_out ++ [1; 2]) = Some (vs, st, [1; 2]).
Proof.
  split; [intro x; apply le_length|].
  assert (C : curve_points toy_ops) by (repeat constructor; apply toZ_inj; vm_compute; reflexivity).
  split; [exact C|]. destruct (C27_writer_total toy_hash toy_ops) as [[[vs st] out] E]. exists vs, st.
  assert (Eo : out = toy_out).
  { apply (f_equal (fun r => match r with Some (_, _, o) => o | None => [] end)) in E. rewrite <- E. vm_compute. reflexivity. }
  subst out. split; [exact E|]. split; [|now apply C27_round_trip].
  unfold toy_out. apply Forall_app. split; [apply le_bytes|]. apply Forall_app. split; apply le_bytes.
Qed.

Print Assumptions C26_native. Print Assumptions C26_circuit_sound. Print Assumptions C26_circuit_complete.
Print Assumptions C26_absorbed_once. Print Assumptions C26_padding_injective. Print Assumptions C26_across_squeezes_refuted. Print Assumptions C26_example.
Print Assumptions C27_round_trip. Print Assumptions C27_writer_total. Print Assumptions C27_canonical. Print Assumptions C27_injective. Print Assumptions C27_example.
