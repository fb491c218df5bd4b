(** An example for [C50_text_partial]: from a verification key to the text of its contract. *)
From Coq Require Import String ZArith NArith Arith List Bool Lia.
From Verif Require Import Util Algebra PField Poseidon PoseidonSpec Bn254 Bn254Prime Curve CurveAssoc Bn254Curve CurveMod Bytes Evm SolScan SolAgg SolPool SolSem SolMemOpt SolAggDriver SolMulAdd
  EvmProofs ShaProofs SolIntervals SolAggProofs ChipRun SolChip SolChipProofs SolEmit SolSharing SolCheck Properties_Emission
  Schema Plonk BuildParams Calls VerifierCalls CallsSim VerifierCallsProofs VerifierCallsTop SolCalls SolCallsProofs Properties_EndToEnd SolIr SolText SolRead SolTextSpec SolTextCheck Properties_Text.
From Verif Require ShaTranscript.
Import ListNotations.

(** the program of [C50_example], with the conditions on its text *)
Definition printed (ops : option (list (op Fr Fq) * nat * nat)) (gen : list (op Fr Fq) -> option (gst Fr Fq * gctx))
    (P : gctx -> list stmt -> expr -> expr -> Prop) : Prop :=
  match ops with
  | Some (l, ix, ig) =>
      match gen l with
      | Some (gs, g) =>
          match nth_error (gs_vals _ _ gs) ix, nth_error (gs_vals _ _ gs) ig with
          | Some (RP _ _ X), Some (RP _ _ G) =>
              match memory_optimize (g_stmts g) (p_expr _ X) (p_expr _ G) with
              | Some (q, x, y, size) => P g q x y
              | None => False
              end
          | _, _ => False
          end
      | None => False
      end
  | None => False
  end.
Lemma printed_inv ops gen P l ix ig gs g X G q x y size : printed ops gen P -> ops = Some (l, ix, ig) -> gen l = Some (gs, g) ->
  nth_error (gs_vals _ _ gs) ix = Some (RP _ _ X) -> nth_error (gs_vals _ _ gs) ig = Some (RP _ _ G) ->
  memory_optimize (g_stmts g) (p_expr _ X) (p_expr _ G) = Some (q, x, y, size) -> P g q x y.
Proof. intros H E1 E2 E3 E4 E5. unfold printed in H. rewrite E1, E2, E3, E4, E5 in H. exact H. Qed.
Lemma vk_printed : printed ex_vops (fun l => ex_generate l vk_sample (repeat (fr 0) 4)) (fun _ q x y => printable q && in_range_b x && in_range_b y = true).
Proof. lazy. reflexivity. Qed.

(** All hypotheses of [C50_text_partial] hold for the key, the sample and the proof of
    [C50_example]; the text exists, and the contract with this text accepts the proof. *)
Example C50_text_example : exists l ix ig gs g X G q x y size q' text,
  ex_vops = Some (l, ix, ig) /\ ex_generate l vk_sample (repeat (fr 0) 4) = Some (gs, g) /\
  nth_error (gs_vals _ _ gs) ix = Some (RP _ _ X) /\ nth_error (gs_vals _ _ gs) ig = Some (RP _ _ G) /\
  memory_optimize (g_stmts g) (p_expr _ X) (p_expr _ G) = Some (q, x, y, size) /\ SolAgg.aggregate false q = Some q' /\
  Forall stmt_in_range q /\ Forall prints q /\ in_range x /\ in_range y /\
  get_wx_wg_text q' x y = Some text /\
  forall vs vn ts tn, Evm.verify (fun _ => Some 1%Z) 4 (text_of (@ofZ Fq 3) true small text size (absorbing_length g + 1)) vs vn ts tn (words vk_proof) vk_pair = Some tt.
Proof.
  destruct C50_example as (l & ix & ig & gs & g & X & G & q & x & y & size & q' & wx & wg & insts & advice & st & Eo & Eg & EX & EG & H1 & H2 & Em & H3 & H4 & H5 & Ea & Er & Ho & Hf & Hi & Ex & Ey & _).
  pose proof (printed_inv _ _ _ _ _ _ _ _ _ _ _ _ _ _ vk_printed Eo Eg EX EG Em) as K. cbv beta in K. apply andb_true_iff in K. destruct K as [K K3]. apply andb_true_iff in K. destruct K as [K1 K2].
  apply printable_ok in K1. destruct K1 as [K1 K1']. apply in_range_ok in K2, K3.
  pose proof (fun vs vn ts tn => C50_text_partial Fr Fq eq_refl eq_refl true true small small_ok small tiny 2 1 [@ofZ Fr 1; @ofZ Fr 0] tiny_shape eG ex_vk 2 1 lagrange [[4%nat]] vk_sample (repeat (fr 0) 4)
    l ix ig gs g X G q' q x y size Eo Eg EX EG H1 H2 Em H3 H4 H5 Ea K1 K1' K2 K3 vk_inst vk_proof wx wg insts advice [] st vk_pair (fun _ => Some 1%Z) vs vn ts tn
    eq_refl Er Ho Hf vk_proof_bytes Hi) as V.
  cbv zeta in V. rewrite Ex, Ey in V. unfold vk_wg in V.
  destruct (V (0, 0, 0, 0)%Z (0, 0, 0, 0)%Z (0, 0, 0, 0)%Z (0, 0, 0, 0)%Z) as (text & Et & _).
  exists l, ix, ig, gs, g, X, G, q, x, y, size, q', text.
  repeat (split; [assumption|]). intros vs vn ts tn. destruct (V vs vn ts tn) as (text' & Et' & W). rewrite Et in Et'. assert (E : text' = text) by congruence. subst text'.
  apply W. split; [reflexivity|]. exists 1%Z, 2%Z, 0%Z, 0%Z, []. split; reflexivity.
Qed.
Print Assumptions C50_text_example.
