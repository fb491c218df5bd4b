(** C58: words that are not below the modulus.  The contract uses the words of the proof and
    the public inputs as they are (halo2-snark-aggregator-solidity/templates/verifier.sol has
    no comparison with [q_mod]), while the native transcript refuses a scalar that is not
    below the modulus.  This is the other direction of C47, which speaks of the proofs and
    final pairs that the native verifier reads. *)
From Coq Require Import String ZArith NArith List Bool Lia.
From Verif Require Import Util Algebra PField Poseidon PoseidonSpec Bn254 Bn254Prime Curve CurveAssoc Bn254Curve CurveMod Bytes Evm SolScan SolAgg SolPool SolSem SolMemOpt SolAggDriver SolMulAdd
  EvmProofs ShaProofs SolIntervals SolAggProofs ChipRun SolChip SolChipProofs SolEmit SolSharing SolCheck Properties_Emission SolIr SolText SolRead SolTextSpec Properties_Text.
From Verif Require ShaTranscript.
Import ListNotations.

(** ** Which final pairs carry public inputs *)
Lemma copy_ok fp n : forall i l, copy_instances fp i n = Some l -> l = firstn n (skipn i fp).
Proof.
  induction n as [|n IH]; intros i l H; cbn [copy_instances] in H; [injection H as <-; reflexivity|].
  destruct (nth_error fp i) as [v|] eqn:E; [|discriminate]. destruct (copy_instances fp (S i) n) as [r|] eqn:R; [|discriminate]. injection H as <-.
  apply IH in R. subst r. clear IH. revert fp E. induction i as [|i IH]; intros [|w fp] E; try discriminate; cbn [nth_error skipn] in *.
  - injection E as ->. destruct fp; reflexivity.
  - exact (IH fp E).
Qed.
Lemma firstn_all {A} (P : A -> Prop) l : Forall P l -> forall k, Forall P (firstn k l).
Proof. induction 1; intros [|k]; cbn [firstn]; constructor; auto. Qed.
Lemma limb_lo x : (0 <= Z.land x (2 ^ 136 - 1) < 2 ^ 136)%Z.
Proof. change (2 ^ 136 - 1)%Z with (Z.ones 136). rewrite Z.land_ones by lia. apply Z.mod_pos_bound. lia. Qed.
Lemma limb_hi x y : word x -> (0 <= shr x 136 + shl (Z.land y 1) 136 < 2 ^ 137)%Z.
Proof.
  intros [H1 H2]. unfold shr, shl. rewrite Z.shiftr_div_pow2, Z.shiftl_mul_pow2 by lia.
  assert (A : (0 <= x / 2 ^ 136 < 2 ^ 120)%Z) by (split; [apply Z.div_pos; lia|apply Z.div_lt_upper_bound; lia]).
  assert (B : (0 <= Z.land y 1 < 2)%Z) by (change 1%Z with (Z.ones 1); rewrite Z.land_ones by lia; apply Z.mod_pos_bound; lia).
  rewrite Z.mod_small by lia. lia.
Qed.
(** The numbers that the contract makes of a final pair are the public inputs of some run of
    the native verifier exactly if the words from the fifth on are below the modulus; the
    four that carry the points are below it in any case. *)
Theorem C58_canonical (F : PF) n fp l : pf_n F = q_mod -> Forall word fp -> contract_instances n fp = Some l ->
  (exists inst : list F, l = map toZ inst) <-> Forall (fun w => (w < q_mod)%Z) (firstn (n - 4) (skipn 4 fp)).
Proof.
  intros HF Hw H. unfold contract_instances in H. destruct fp as [|x0 [|y0 [|x1 [|y1 fp]]]]; try discriminate H. cbn [nth_error] in H.
  destruct (copy_instances _ 4 (n - 4)) as [rest|] eqn:Er; [|discriminate H]. apply copy_ok in Er. rewrite <- Er. cbv zeta in H. assert (E : forall A (a c : A), Some a = Some c -> a = c) by (intros A a c K; congruence). apply E in H. clear E. subst l.
  inversion_clear Hw as [|? ? W0 Hw1]. inversion_clear Hw1 as [|? ? _ Hw2]. inversion_clear Hw2 as [|? ? W1 Hw3]. inversion_clear Hw3 as [|? ? _ Hw4].
  assert (Hr : Forall word rest) by (rewrite Er; cbn [skipn]; apply firstn_all; exact Hw4).
  pose proof (limb_lo x0) as A0. pose proof (limb_lo x1) as A1. pose proof (limb_hi x0 y0 W0) as B0. pose proof (limb_hi x1 y1 W1) as B1.
  assert (Q : (2 ^ 137 < q_mod)%Z) by reflexivity. split.
  - intros (inst & E). rewrite Forall_forall. intros w Hin.
    assert (K : In w (map (@toZ F) inst)) by (rewrite <- E; do 4 right; exact Hin). apply in_map_iff in K. destruct K as (v & <- & _). rewrite <- HF. apply toZ_range.
  - intro Hlt. assert (K : forall l, Forall word l -> Forall (fun w => (w < q_mod)%Z) l -> exists inst : list F, l = map toZ inst).
    { clear -HF. intros l. induction l as [|w l IH]; intros Hw Hq; [exists []; reflexivity|]. inversion_clear Hw as [|? ? W1 W2]. inversion_clear Hq as [|? ? Q1 Q2].
      destruct (IH W2 Q2) as (inst & ->). exists (ofZ w :: inst). cbn [map]. rewrite toZ_small; [reflexivity|rewrite HF; destruct W1; lia]. }
    apply K; repeat apply Forall_cons; try exact Hr; try exact Hlt; unfold word; lia.
Qed.
Print Assumptions C58_canonical.
(** a final pair with five words, for five public inputs *)
Definition al_words : list Z := [1; 2; 1; 2; 7]%Z.
Example C58_canonical_example : Forall word al_words /\ contract_instances 5 al_words = Some [1; 0; 1; 0; 7]%Z /\
  Forall (fun w => (w < q_mod)%Z) (firstn 1 (skipn 4 al_words)).
Proof. split; [repeat constructor; discriminate|]. split; [vm_compute; reflexivity|repeat constructor]. Qed.

(** ** Which scalars the native verifier reads *)
(** The native transcript reads a scalar exactly if a whole word is left and the word is below
    the modulus; the value read is that word, the first of those passed to the contract. *)
Theorem C58_scalar (F : PF) st proof : pf_n F = q_mod -> Forall byte proof ->
  (forall v st' rest, ShaTranscript.read_scalar (S := F) st proof = Some (v, st', rest) -> words proof = toZ v :: words rest) /\
  ((exists v st' rest, ShaTranscript.read_scalar (S := F) st proof = Some (v, st', rest)) <-> exists w ws, words proof = w :: ws /\ (w < q_mod)%Z).
Proof.
  intros HF Hb.
  assert (P : forall d, Forall byte d -> (0 <= leval d)%Z) by (intros d Hd; apply leval_bounds; exact Hd).
  assert (A : forall v st' rest, ShaTranscript.read_scalar (S := F) st proof = Some (v, st', rest) -> words proof = toZ v :: words rest).
  { intros v st' rest H. unfold ShaTranscript.read_scalar in H. destruct (ShaTranscript.read_exact 32 proof) as [[d r]|] eqn:E; [|discriminate H].
    pose proof (words_read _ _ _ E) as K. unfold ShaTranscript.from_repr in H. destruct (Z.ltb_spec (leval d) (pf_n F)) as [B|]; [|discriminate H]. injection H as <- _ <-.
    rewrite K, toZ_small; [reflexivity|]. split; [|exact B]. apply P. unfold ShaTranscript.read_exact in E. destruct (32 <=? List.length proof)%nat; [|discriminate E].
    assert (D : firstn 32 proof = d) by congruence. rewrite <- D. apply firstn_all. exact Hb. }
  split; [exact A|]. split.
  - intros (v & st' & rest & H). exists (toZ v), (words rest). split; [exact (A _ _ _ H)|]. rewrite <- HF. apply toZ_range.
  - intros (w & ws & E & B). unfold ShaTranscript.read_scalar. destruct (ShaTranscript.read_exact 32 proof) as [[d r]|] eqn:R.
    + pose proof (words_read _ _ _ R) as K. rewrite E in K. assert (D : w = leval d) by congruence. unfold ShaTranscript.from_repr. rewrite HF.
      destruct (Z.ltb_spec (leval d) q_mod) as [|N]; [eauto|]. rewrite <- D in N. lia.
    + exfalso. unfold ShaTranscript.read_exact in R. destruct (Nat.leb_spec 32 (List.length proof)) as [|L]; [discriminate R|].
      unfold words in E. rewrite Nat.div_small in E by exact L. discriminate E.
Qed.
Print Assumptions C58_scalar.
(** the word 7 is read, the word [7 + q_mod] is not *)
Example C58_scalar_example : Forall byte (le 32 7) /\ words (le 32 7) = [7%Z] /\ words (le 32 (7 + q_mod)) = [(7 + q_mod)%Z].
Proof. split; [apply le_bytes|]. split; vm_compute; reflexivity. Qed.

(** ** A proof *)
(** The proof of C47's example with the scalar 1 written as [1 + q_mod]. *)
Definition long_proof : list Z := (point_bytes 1 2 ++ point_bytes 1 (p_mod - 2) ++ le 32 (1 + q_mod))%list.
Lemma long_bytes : Forall byte long_proof.
Proof. unfold long_proof, point_bytes. repeat (apply Forall_app; split); apply le_bytes. Qed.
Definition nothing {A} (r : option A) : Prop := match r with None => True | Some _ => False end.
Lemma nothing_inv {A} (r : option A) : nothing r -> r = None.
Proof. destruct r; [contradiction|reflexivity]. Qed.
Lemma long_native : nothing (nat_run ex_ops long_proof ex_inst).
Proof. vm_compute. exact I. Qed.

(** All the hypotheses that C47 puts on the generated program hold, the bytes are bytes and
    as many as expected, and the native verifier refuses the proof; the contract and its
    text accept it, with the points they compute from the proof that has the scalar in
    canonical form.  (The hash of the example looks at the length of its input only.  For a
    hash that looks at the words the two proofs have different challenges; the words are
    accepted all the same.) *)
Theorem C58_proof_refuted : exists gs g X G, gen ex_ops ex_proof ex_inst = Some (gs, g) /\
  nth_error (gs_vals _ _ gs) 8 = Some (RP _ _ X) /\ nth_error (gs_vals _ _ gs) 9 = Some (RP _ _ G) /\
  Forall (const_on (@ofZ Fq 3)) ex_ops /\ Forall no_self_add (g_stmts g) /\ (g_mem g < DEADBEAF)%N /\
  memory_optimize (g_stmts g) (p_expr _ X) (p_expr _ G) = Some (ex_opt, EMemory 0 TPoint, EMemory 2 TPoint, 4%N) /\
  Forall fits ex_opt /\ paired ex_opt /\ no_abandoned ex_opt /\ SolAgg.aggregate false ex_opt = Some ex_agg /\
  Forall byte long_proof /\ List.length long_proof = List.length ex_proof /\
  contract_instances 4 ex_pair = Some (map toZ ex_inst) /\
  nat_run ex_ops long_proof ex_inst = None /\
  let contract pr ins := get_wx_wg (@ofZ Fq 3) true toy (mkEnv pr ins 4 (absorbing_length g + 1)) ex_agg (EMemory 0 TPoint) (EMemory 2 TPoint) in
  let text := text_of (@ofZ Fq 3) true toy ex_contract 4 (absorbing_length g + 1) in
  contract (words long_proof) (map toZ ex_inst) = contract (words ex_proof) (map toZ ex_inst) /\
  contract (words long_proof) (map toZ ex_inst) = Some (twice_x, twice_y, twice_x, p_mod - twice_y)%Z /\
  forall vs vn ts tn,
    Evm.verify (fun _ => Some 1%Z) 4 contract vs vn ts tn (words long_proof) ex_pair = Some tt /\
    Evm.verify (fun _ => Some 1%Z) 4 text vs vn ts tn (words long_proof) ex_pair = Some tt.
Proof.
  destruct C47_contract_example as (gs & g & X & G & q' & Hg & EX & EG & Hc & Hn & Hd & Ho & Hf & Hp & Ha & Hq & Hi & _).
  assert (Ea : SolAgg.aggregate false ex_opt = Some ex_agg) by (vm_compute; reflexivity).
  pose proof ex_gen_ok as K. rewrite Hg in K. destruct K as (_ & _ & K & _).
  exists gs, g, X, G. repeat (split; [first [exact Hg|exact EX|exact EG|exact Hc|exact Hn|exact Hd|exact Ho|exact Hf|exact Hp|exact Ha|exact Ea|exact long_bytes]|]).
  split; [vm_compute; reflexivity|]. split; [exact Hi|]. split; [apply nothing_inv, long_native|]. rewrite K. cbv zeta.
  assert (R1 : get_wx_wg (@ofZ Fq 3) true toy (mkEnv (words long_proof) (map toZ ex_inst) 4 11) ex_agg (EMemory 0 TPoint) (EMemory 2 TPoint) = Some (twice_x, twice_y, twice_x, p_mod - twice_y)%Z)
    by (vm_compute; reflexivity).
  assert (R2 : get_wx_wg (@ofZ Fq 3) true toy (mkEnv (words ex_proof) (map toZ ex_inst) 4 11) ex_agg (EMemory 0 TPoint) (EMemory 2 TPoint) = Some (twice_x, twice_y, twice_x, p_mod - twice_y)%Z)
    by (vm_compute; reflexivity).
  change (10 + 1)%N with 11%N. split; [rewrite R1, R2; reflexivity|]. split; [exact R1|]. intros vs vn ts tn.
  assert (V : Evm.verify (fun _ => Some 1%Z) 4 (fun pr ins => get_wx_wg (@ofZ Fq 3) true toy (mkEnv pr ins 4 11) ex_agg (EMemory 0 TPoint) (EMemory 2 TPoint)) vs vn ts tn (words long_proof) ex_pair = Some tt).
  { unfold Evm.verify. rewrite Hi. cbv beta iota. rewrite R1. reflexivity. }
  split; [exact V|]. destruct C47_text_example as (_ & Wq & Rq & Et & _).
  destruct (C57_text ex_agg (EMemory 0 TPoint) (EMemory 2 TPoint) ex_contract Wq Rq (conj I eq_refl) (conj I eq_refl) eq_refl eq_refl Et) as (prog & R & D).
  rewrite (verify_text (@ofZ Fq 3) true toy 4 11 ex_agg _ _ ex_contract prog (fun _ => Some 1%Z) 4 vs vn ts tn (words long_proof) ex_pair R (fun E => D Fq (@ofZ Fq 3) true toy E)). exact V.
Qed.
Print Assumptions C58_proof_refuted.

(** ** Public inputs *)
(** Nor are the public inputs compared with [q_mod]: those beyond the first four are copied
    from [target_circuit_final_pair] as they are (verifier.sol:365-367).  A circuit with
    five public inputs: the product of the first and the fifth multiplies a point. *)
Definition al_proof : list Z := (point_bytes 1 2 ++ point_bytes 1 (p_mod - 2))%list.
Definition al_inst : list Fr := map (@ofZ Fr) [1; 0; 1; 0; 2]%Z.
Definition al_pair : list Z := [1; 2; 1; 2; 2]%Z.
Definition al_pair' : list Z := [1; 2; 1; 2; 2 + q_mod]%Z.
Definition al_ops : list (op Fr Fq) :=
  [OReadPoint; OReadPoint; OInstance; OInstance; OInstance; OInstance; OInstance; OCommonScalar 6; OMul 2 6; OPMul 7 0; OPSub 1 0].
Definition al_stmts : list stmt :=
  [UpdateHash (ETranscript 0 TPoint) 0; UpdateHash (ETranscript 2 TPoint) 3; UpdateHash (EInstance 4 TScalar) 6;
   Assign (EMemory 0 TScalar) (EMul (EInstance 0 TScalar) (EInstance 4 TScalar) TScalar);
   Assign (EMemory 1 TPoint) (EMul (EMemory 0 TScalar) (ETranscript 0 TPoint) TPoint);
   Assign (EMemory 3 TPoint) (ESub (ETranscript 2 TPoint) (ETranscript 0 TPoint) TPoint)]%N.
Definition al_opt : list stmt :=
  [UpdateHash (ETranscript 0 TPoint) 0; UpdateHash (ETranscript 2 TPoint) 3; UpdateHash (EInstance 4 TScalar) 6;
   Assign (ETemp TScalar) (EMul (EInstance 0 TScalar) (EInstance 4 TScalar) TScalar);
   Assign (EMemory 0 TPoint) (EMul (ETemp TScalar) (ETranscript 0 TPoint) TPoint);
   Assign (EMemory 2 TPoint) (ESub (ETranscript 2 TPoint) (ETranscript 0 TPoint) TPoint)]%N.
Lemma al_gen_ok : match gen al_ops al_proof al_inst with
  | Some (gs, g) => g_stmts g = al_stmts /\ g_mem g = 5%N /\ absorbing_length g = 8%N /\ is_point gs 8 (EMemory 1 TPoint) /\ is_point gs 9 (EMemory 3 TPoint)
  | None => False end.
Proof. vm_compute. repeat split. Qed.
Lemma al_opt_ok : memory_optimize al_stmts (EMemory 1 TPoint) (EMemory 3 TPoint) = Some (al_opt, EMemory 0 TPoint, EMemory 2 TPoint, 4%N).
Proof. vm_compute. reflexivity. Qed.
Lemma al_native_ok : points_are (nat_run al_ops al_proof al_inst) 8 9 ((twice_x, twice_y), (twice_x, p_mod - twice_y)%Z).
Proof. vm_compute. reflexivity. Qed.
Lemma al_fine : fine (@ofZ Fq 3) toy true al_ops al_proof al_inst.
Proof. apply fine_b_ok. vm_compute. reflexivity. Qed.

(** The program meets the hypotheses of C47 and the native verifier computes two points
    from the proof and the public inputs.  Two different final pairs are accepted with this
    one proof, for every hash: the one that carries the public inputs, and one that is the
    final pair of no list of public inputs. *)
Theorem C58_inputs_refuted : exists gs g X G q' n P Q, gen al_ops al_proof al_inst = Some (gs, g) /\
  nth_error (gs_vals _ _ gs) 8 = Some (RP _ _ X) /\ nth_error (gs_vals _ _ gs) 9 = Some (RP _ _ G) /\
  Forall (const_on (@ofZ Fq 3)) al_ops /\ Forall no_self_add (g_stmts g) /\ (g_mem g < DEADBEAF)%N /\
  memory_optimize (g_stmts g) (p_expr _ X) (p_expr _ G) = Some (al_opt, EMemory 0 TPoint, EMemory 2 TPoint, 4%N) /\
  Forall fits al_opt /\ paired al_opt /\ no_abandoned al_opt /\ SolAgg.aggregate false al_opt = Some q' /\
  nat_run al_ops al_proof al_inst = Some n /\ fine (@ofZ Fq 3) toy true al_ops al_proof al_inst /\
  n_p (n_vals n) 8 = Some P /\ n_p (n_vals n) 9 = Some Q /\
  contract_instances 5 al_pair = Some (map toZ al_inst) /\
  al_pair' <> al_pair /\ (forall inst : list Fr, contract_instances 5 al_pair' <> Some (map toZ inst)) /\
  forall sha256 vs vn ts tn,
    let contract pr ins := get_wx_wg (@ofZ Fq 3) true sha256 (mkEnv pr ins 4 (absorbing_length g + 1)) q' (EMemory 0 TPoint) (EMemory 2 TPoint) in
    Evm.verify (fun _ => Some 1%Z) 5 contract vs vn ts tn (words al_proof) al_pair = Some tt /\
    Evm.verify (fun _ => Some 1%Z) 5 contract vs vn ts tn (words al_proof) al_pair' = Some tt.
Proof.
  pose proof al_gen_ok as Hg. destruct (gen al_ops al_proof al_inst) as [[gs g]|] eqn:Eg; [|contradiction].
  destruct Hg as (Es & Em & Ea & Hx & Hw). apply is_point_inv in Hx, Hw. destruct Hx as (X & EX & PX), Hw as (G & EG & PG).
  destruct (points_are_inv _ _ _ _ al_native_ok) as (n & P & Q & En & EP & EQ & _ & _).
  assert (Hc : Forall (const_on (@ofZ Fq 3)) al_ops) by (unfold al_ops; repeat constructor).
  assert (Hn : Forall no_self_add (g_stmts g)) by (rewrite Es; unfold al_stmts; repeat apply Forall_cons; try apply Forall_nil; try exact I; cbn; intros o ty; split; intros; intuition discriminate).
  assert (Hd : (g_mem g < DEADBEAF)%N) by (rewrite Em; reflexivity).
  assert (Ho : memory_optimize (g_stmts g) (p_expr _ X) (p_expr _ G) = Some (al_opt, EMemory 0 TPoint, EMemory 2 TPoint, 4%N)) by (rewrite Es, PX, PG; exact al_opt_ok).
  assert (Hf : Forall fits al_opt) by (unfold al_opt; Properties_Codegen.decide_all).
  assert (Hp : paired al_opt).
  { intros pre m a rest H. unfold al_opt in H.
    destruct pre as [|? pre]; cbn [app] in H; [injection H as <- <- <-; right; eexists; reflexivity|injection H as <- H].
    destruct pre as [|? pre]; cbn [app] in H; [injection H as <- <- <-; left; eexists [], _, _; split; [reflexivity|split; reflexivity]|injection H as <- H].
    repeat (destruct pre as [|? pre]; cbn [app] in H; [discriminate H|injection H as _ H]). destruct pre; discriminate H. }
  assert (Ha : no_abandoned al_opt).
  { intros pre a c s post H Hc0 Nc. unfold al_opt, square in H.
    repeat (destruct pre as [|? pre]; cbn [app] in H; [exfalso; congruence|injection H as _ H]). destruct pre; discriminate H. }
  destruct (SolAgg.aggregate false al_opt) as [q'|] eqn:Eq; [|vm_compute in Eq; discriminate Eq].
  assert (Hi : contract_instances 5 al_pair = Some (map toZ al_inst)) by (vm_compute; reflexivity).
  assert (Hi' : contract_instances 5 al_pair' = Some [1; 0; 1; 0; 2 + q_mod]%Z) by (vm_compute; reflexivity).
  exists gs, g, X, G, q', n, P, Q. pose proof al_fine. repeat (split; [eassumption || reflexivity|]).
  split; [intro D; apply (f_equal (fun l => Z.ltb (nth 4 l 0%Z) 3)) in D; vm_compute in D; discriminate D|]. split.
  { intros inst H'. rewrite Hi' in H'. destruct inst as [|? [|? [|? [|? [|v [|? ?]]]]]]; try discriminate H'. cbn [map] in H'.
    assert (V : (2 + q_mod = toZ v)%Z) by (injection H' as _ _ _ _ V; exact V). pose proof (toZ_range Fr v) as B. change (pf_n Fr) with q_mod in B. lia. }
  intros sha256 vs vn ts tn. cbv zeta. rewrite Ea. change (8 + 1)%N with 9%N.
  vm_compute in Eq. injection Eq as <-. split; vm_compute; reflexivity.
Qed.
Print Assumptions C58_inputs_refuted.

(** A witness that does not depend on the digest: no challenge is derived, the square of the
    scalar in the proof multiplies a point. *)
Definition sc_ops : list (op Fr Fq) := [OReadPoint; OReadPoint; OReadScalar; OMul 2 2; OPMul 3 0; OPSub 1 0].
Definition sc_proof (w : Z) : list Z := (point_bytes 1 2 ++ point_bytes 1 (p_mod - 2) ++ le 32 w)%list.
Lemma sc_bytes w : Forall byte (sc_proof w).
Proof. unfold sc_proof, point_bytes. repeat (apply Forall_app; split); apply le_bytes. Qed.
Definition sc_stmts : list stmt :=
  [UpdateHash (ETranscript 0 TPoint) 0; UpdateHash (ETranscript 2 TPoint) 3; UpdateHash (ETranscript 4 TScalar) 6;
   Assign (EMemory 0 TScalar) (EMul (ETranscript 4 TScalar) (ETranscript 4 TScalar) TScalar);
   Assign (EMemory 1 TPoint) (EMul (EMemory 0 TScalar) (ETranscript 0 TPoint) TPoint);
   Assign (EMemory 3 TPoint) (ESub (ETranscript 2 TPoint) (ETranscript 0 TPoint) TPoint)]%N.
Definition sc_opt : list stmt :=
  [UpdateHash (ETranscript 0 TPoint) 0; UpdateHash (ETranscript 2 TPoint) 3; UpdateHash (ETranscript 4 TScalar) 6;
   Assign (ETemp TScalar) (EMul (ETranscript 4 TScalar) (ETranscript 4 TScalar) TScalar);
   Assign (EMemory 0 TPoint) (EMul (ETemp TScalar) (ETranscript 0 TPoint) TPoint);
   Assign (EMemory 2 TPoint) (ESub (ETranscript 2 TPoint) (ETranscript 0 TPoint) TPoint)]%N.
Lemma sc_gen_ok : match gen sc_ops (sc_proof 1) ex_inst with
  | Some (gs, g) => g_stmts g = sc_stmts /\ g_mem g = 5%N /\ absorbing_length g = 8%N /\ is_point gs 4 (EMemory 1 TPoint) /\ is_point gs 5 (EMemory 3 TPoint)
  | None => False end.
Proof. vm_compute. repeat split. Qed.
Lemma sc_opt_ok : memory_optimize sc_stmts (EMemory 1 TPoint) (EMemory 3 TPoint) = Some (sc_opt, EMemory 0 TPoint, EMemory 2 TPoint, 4%N).
Proof. vm_compute. reflexivity. Qed.
Lemma sc_native H : nothing (native (@ofZ Fq 3) H true sc_ops (sc_proof (1 + q_mod)) ex_inst).
Proof. vm_compute. exact I. Qed.
Lemma sc_native_1 H : points_are (native (@ofZ Fq 3) H true sc_ops (sc_proof 1) ex_inst) 4 5 ((1, 2), (twice_x, p_mod - twice_y))%Z.
Proof. vm_compute. reflexivity. Qed.

(** For every digest the native verifier refuses the one proof and computes two points from
    the other, and the contract computes these two points from both. *)
Theorem C58_any_digest_refuted : exists gs g X G q', gen sc_ops (sc_proof 1) ex_inst = Some (gs, g) /\
  nth_error (gs_vals _ _ gs) 4 = Some (RP _ _ X) /\ nth_error (gs_vals _ _ gs) 5 = Some (RP _ _ G) /\
  Forall (const_on (@ofZ Fq 3)) sc_ops /\ Forall no_self_add (g_stmts g) /\ (g_mem g < DEADBEAF)%N /\
  memory_optimize (g_stmts g) (p_expr _ X) (p_expr _ G) = Some (sc_opt, EMemory 0 TPoint, EMemory 2 TPoint, 4%N) /\
  Forall fits sc_opt /\ paired sc_opt /\ no_abandoned sc_opt /\ SolAgg.aggregate false sc_opt = Some q' /\
  Forall byte (sc_proof (1 + q_mod)) /\ contract_instances 4 ex_pair = Some (map toZ ex_inst) /\
  forall digest,
    native (@ofZ Fq 3) digest true sc_ops (sc_proof (1 + q_mod)) ex_inst = None /\
    (exists n P Q, native (@ofZ Fq 3) digest true sc_ops (sc_proof 1) ex_inst = Some n /\ n_p (n_vals n) 4 = Some P /\ n_p (n_vals n) 5 = Some Q /\
      forall w, w = 1%Z \/ w = (1 + q_mod)%Z ->
        get_wx_wg (@ofZ Fq 3) true digest (mkEnv (words (sc_proof w)) (map toZ ex_inst) 4 (absorbing_length g + 1)) q' (EMemory 0 TPoint) (EMemory 2 TPoint)
          = Some (fst (encode P), snd (encode P), fst (encode Q), snd (encode Q))) /\
    forall vs vn ts tn,
      Evm.verify (fun _ => Some 1%Z) 4 (fun pr ins => get_wx_wg (@ofZ Fq 3) true digest (mkEnv pr ins 4 (absorbing_length g + 1)) q' (EMemory 0 TPoint) (EMemory 2 TPoint))
        vs vn ts tn (words (sc_proof (1 + q_mod))) ex_pair = Some tt.
Proof.
  pose proof sc_gen_ok as Hg. destruct (gen sc_ops (sc_proof 1) ex_inst) as [[gs g]|] eqn:Eg; [|contradiction].
  destruct Hg as (Es & Em & Ea & Hx & Hw). apply is_point_inv in Hx, Hw. destruct Hx as (X & EX & PX), Hw as (G & EG & PG).
  assert (Hc : Forall (const_on (@ofZ Fq 3)) sc_ops) by (unfold sc_ops; repeat constructor).
  assert (Hn : Forall no_self_add (g_stmts g)) by (rewrite Es; unfold sc_stmts; repeat apply Forall_cons; try apply Forall_nil; try exact I; cbn; intros o ty; split; intros; intuition discriminate).
  assert (Hd : (g_mem g < DEADBEAF)%N) by (rewrite Em; reflexivity).
  assert (Ho : memory_optimize (g_stmts g) (p_expr _ X) (p_expr _ G) = Some (sc_opt, EMemory 0 TPoint, EMemory 2 TPoint, 4%N)) by (rewrite Es, PX, PG; exact sc_opt_ok).
  destruct (conditions_ok sc_opt) as (Hf & Hp & Ha); [vm_compute; reflexivity|].
  destruct (SolAgg.aggregate false sc_opt) as [q'|] eqn:Eq; [|vm_compute in Eq; discriminate Eq].
  assert (Hi : contract_instances 4 ex_pair = Some (map toZ ex_inst)) by (vm_compute; reflexivity).
  exists gs, g, X, G, q'. pose proof (sc_bytes (1 + q_mod)). do 13 (split; [eassumption || reflexivity|]).
  intro digest. split; [apply nothing_inv, sc_native|]. rewrite Ea. change (8 + 1)%N with 9%N. vm_compute in Eq. injection Eq as <-. split.
  - destruct (points_are_inv _ _ _ _ (sc_native_1 digest)) as (n & P & Q & En & EP & EQ & CP & CQ). exists n, P, Q. split; [exact En|]. split; [exact EP|]. split; [exact EQ|].
    rewrite CP, CQ. intros w [-> | ->]; vm_compute; reflexivity.
  - intros vs vn ts tn. vm_compute. reflexivity.
Qed.
Print Assumptions C58_any_digest_refuted.
