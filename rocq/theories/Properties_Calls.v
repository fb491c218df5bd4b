(** C49: the verifier of verify.rs is generic in its chips.  The list of calls it makes
    to them depends on the verification keys, on the shape of the instances and on the
    number of opening points, and running the list computes the verifier's result. *)
From Coq Require Import String ZArith NArith Arith List Bool Lia.
From Verif Require Import Util Algebra Schema Plonk ApiProofs Poseidon PoseidonSpec PoseidonProofs BuildParams ReaderSpec ReaderMain AggregationProofs Properties_Reader
  Calls VerifierCalls CallsSim VerifierCallsProofs VerifierCallsTop.
Import ListNotations.

Section C49.
  Variable F : Fld.
  Variable M : Mod F.
  (** length and decoding of a point and of a scalar in the proof *)
  Variables (PT SC : nat).
  Variable pt_decode : list Z -> option M.
  Variable sc_decode : list Z -> option F.
  Hypothesis Hpos : (1 <= PT)%nat.
  (** the transcript's hash *)
  Variable St : Type.
  Variable upd_pt : St -> M -> St.
  Variable upd_sc : St -> F -> St.
  Variable sqz : St -> option (F * St).
  Variable generator : M.
  Notation run := (run_calls F M PT SC pt_decode sc_decode St upd_pt upd_sc sqz generator).
  Notation aggregation := (verify_aggregation_proofs_in_chip F M PT SC pt_decode sc_decode St upd_pt upd_sc sqz).
  Notation single := (verify_single_proof_in_chip F M PT SC pt_decode sc_decode St upd_pt upd_sc sqz).
  (** number of points the final loop reads from the proof *)
  Notation opening_points := (opening_points F M PT SC pt_decode sc_decode St upd_pt upd_sc sqz).
  Notation counts := (counts F M PT SC pt_decode sc_decode St upd_pt upd_sc sqz).
  (** no further point can be read *)
  Notation no_point t := (read_point F M PT pt_decode St upd_pt t = None).

  (** One proof: the native verifier returns the pair [wx], [wg] after reading [nw]
      opening points exactly if the calls made for [nw] points run and leave these
      values in the cells they name, and no further point follows. *)
  Theorem C49_single_proof vk nw columns g_lagrange instances t rest wx wg insts advice t' :
    (single vk columns g_lagrange generator instances t = Some (wx, wg, insts, advice, t') /\
     opening_points (mkCP vk columns g_lagrange generator []) (mkPD instances t "") = Some nw) <->
    (exists a b is_ ad calls n s',
       c_verify_single_proof_in_chip F M 0 vk nw columns g_lagrange (map (map (@List.length F)) instances) 0 = Some (a, b, is_, ad, calls, n) /\
       run calls (mkC [] (concat (concat instances) ++ rest) [t]) = Some s' /\
       val_p s' a = Some wx /\ val_p s' b = Some wg /\ mapM (val_s s') is_ = Some insts /\ mapM (val_p s') ad = Some advice /\
       c_inst s' = rest /\ c_trs s' = [t'] /\ no_point t').
  Proof. apply single_calls. exact Hpos. Qed.

  (** The aggregation: the transcript number [0] is the one that draws the combination
      challenge, the transcripts of the proofs follow. *)
  Theorem C49_aggregation nw cs h rm rest wx wg insts advices :
    (forall c, nth_error cs 0 = Some c -> cp_generator c = generator) ->
    (aggregation cs h = Some (wx, wg, insts, advices) /\ counts nw 1 (all_proofs F M St cs)) <->
    (exists a b is_ ads calls n s',
       c_verify_aggregation_proofs_in_chip F M 0 (hcircuits_of F M St nw 1 cs) 0 = Some (a, b, is_, ads, calls, n) /\
       run calls (mkC [] (all_instances F M St cs ++ rest) (mkTr rm h :: all_transcripts F M St cs)) = Some s' /\
       val_p s' a = Some wx /\ val_p s' b = Some wg /\ mapM (val_s s') is_ = Some insts /\ mapM (mapM (val_p s')) ads = Some advices /\
       c_inst s' = rest /\ Forall (fun t => no_point t) (skipn 1 (c_trs s'))).
  Proof. apply aggregation_calls. exact Hpos. Qed.

  (** Two sets of proofs for the same circuits with instances of the same shapes and the
      same keys lead to the same calls: the circuit synthesised for one serves the other. *)
  Theorem C49_same_calls nw cs cs' :
    Forall2 (fun c c' => cp_vk c = cp_vk c' /\ cp_columns c = cp_columns c' /\ cp_g_lagrange c = cp_g_lagrange c' /\
      Forall2 (fun p p' => map (map (@List.length F)) (pd_instances p) = map (map (@List.length F)) (pd_instances p') /\ pd_key p = pd_key p')
        (cp_proofs c) (cp_proofs c')) cs cs' ->
    c_verify_aggregation_proofs_in_chip F M 0 (hcircuits_of F M St nw 1 cs) 0 = c_verify_aggregation_proofs_in_chip F M 0 (hcircuits_of F M St nw 1 cs') 0.
  Proof.
    intro H. f_equal. assert (E : hcircuits_of F M St nw 1 cs = hcircuits_of F M St nw 1 cs'); [|now rewrite E].
    generalize 1 as k. induction H as [|c c' cs cs' (H1 & H2 & H3 & H4) _ IH]; intro k; [reflexivity|]. cbn [hcircuits_of].
    assert (L : List.length (cp_proofs c) = List.length (cp_proofs c')) by (clear - H4; induction H4; cbn; congruence). rewrite IH, L. f_equal.
    unfold hcircuit_of. rewrite H1, H2, H3. f_equal. clear - H4. revert k. induction H4 as [|p p' l l' [A B] _ IH]; intro k; [reflexivity|].
    cbn [hproofs_of]. unfold hproof_of at 1. rewrite A, B, IH. reflexivity.
  Qed.
End C49.
Print Assumptions C49_single_proof.
Print Assumptions C49_aggregation.
Print Assumptions C49_same_calls.

(** ** Example: two proofs of one circuit; the calls run and the points agree *)
Definition toy_generated := c_verify_aggregation_proofs_in_chip F101 (self_mod F101) 0
  (hcircuits_of F101 (self_mod F101) (sponge_state F101) (fun _ => 4) 1 [toy_circuit]) 0.
Definition toy_ran := match toy_generated with
  | Some (r, calls, _) =>
      match run_calls F101 (self_mod F101) 1 1 byte_elem byte_elem (sponge_state F101) (sponge_upd_pt F101 (self_mod F101) byte_hash) (sponge_upd_sc F101)
         (sponge_sqz F101 f101_spec 2) (f101 1) calls
         (mkC [] [f101 3; f101 4; f101 5] [mkTr [] (mkP (A := mock_chip F101) f101_init []); toy_start toy_bytes; toy_start (rev toy_bytes)]) with
      | Some s => Some (r, s) | None => None end
  | None => None end.
Definition toy_native := verify_aggregation_proofs_in_chip F101 (self_mod F101) 1 1 byte_elem byte_elem
    (sponge_state F101) (sponge_upd_pt F101 (self_mod F101) byte_hash) (sponge_upd_sc F101) (sponge_sqz F101 f101_spec 2) [toy_circuit] (mkP (A := mock_chip F101) f101_init []).
Definition feqb (x y : F101) : bool := if feq_dec x y then true else false.
Example C49_example : match toy_ran, toy_native with
  | Some ((a, b, is_, ads), s), Some (wx, wg, insts, advs) =>
      (a, b, is_, ads, List.length (c_vals s)) = (371, 511, [0; 1; 182], [[8; 10]; [187; 189]], 512) /\
      val_p s a = Some wx /\ val_p s b = Some wg /\ mapM (val_s s) is_ = Some insts /\ mapM (mapM (val_p s)) ads = Some advs /\
      c_inst s = [] /\ map t_rest (c_trs s) = [[]; []; []] /\ feqb wx (f101 35) && feqb wg (f101 9) = true
  | _, _ => False end.
Proof. vm_compute. repeat split. Qed.
(** the hypotheses of the two sides hold: four opening points each *)
Example C49_example_counts : counts F101 (self_mod F101) 1 1 byte_elem byte_elem
    (sponge_state F101) (sponge_upd_pt F101 (self_mod F101) byte_hash) (sponge_upd_sc F101) (sponge_sqz F101 f101_spec 2) (fun _ => 4) 1
    (VerifierCallsTop.all_proofs F101 (self_mod F101) (sponge_state F101) [toy_circuit]).
Proof.
  intros [|[|i]] c p E; [| |destruct i; discriminate E]; injection E as <- <-; vm_compute; reflexivity.
Qed.
(** for three opening points no list of calls exists: the queries fall into four groups *)
Example C49_example_too_few : match c_verify_aggregation_proofs_in_chip F101 (self_mod F101) 0
    (hcircuits_of F101 (self_mod F101) (sponge_state F101) (fun _ => 3) 1 [toy_circuit]) 0 with Some _ => False | None => True end.
Proof. vm_compute. exact I. Qed.
