(** Properties C28, C45, C46: reading a proof. *)
From Coq Require Import String ZArith NArith Arith Bool Lia List.
From Verif Require Import Util Algebra Schema Plonk PlonkSpec PlonkProofs MultiopenProofs Keys ApiProofs Poseidon PoseidonSpec PoseidonInst
  BuildParams ReaderSpec ListFacts ReaderProofs ReaderMain ReaderTail AggregationProofs Properties_Api.
Import ListNotations.

Section Reader.
  (** The byte decodings and the hash are arbitrary. *)
  Variable F : Fld.
  Variable M : Mod F.
  Variables (PT SC : nat).
  Variable pt_decode : list Z -> option M.
  Variable sc_decode : list Z -> option F.
  Variable St : Type.
  Variable upd_pt : St -> M -> St.
  Variable upd_sc : St -> F -> St.
  Variable sqz : St -> option (F * St).
  Variable vk : vkey F M.
  Local Notation follows := (follows F M PT SC pt_decode sc_decode St upd_pt upd_sc sqz).
  Local Notation build := (build_params F M PT SC pt_decode sc_decode St upd_pt upd_sc sqz vk).
  Local Notation verify := (verify_single_proof_no_eval F M PT SC pt_decode sc_decode St upd_pt upd_sc sqz vk).

  (** * C45: the reader runs the protocol

      [protocol] (ReaderSpec.v) lists, in order, what is absorbed, read and drawn.
      Reading succeeds with parameters [p] exactly when the bytes and the hash follow
      that list, [p] has the sizes prescribed by the key, and everything else in [p] is
      determined by the key, the instance commitments and the drawn point. *)
  Theorem C45_reader_runs_protocol key instances t p t' : (1 <= PT)%nat -> wf_vk vk ->
    build key instances t = Some (p, t') <->
    determined vk key instances p /\ shaped vk (length instances) p /\ follows (protocol vk p) t t'.
  Proof. intros H1 H2. exact (build_params_iff F M PT SC pt_decode sc_decode St upd_pt upd_sc sqz vk H1 H2 key instances t p t'). Qed.

  (** * C28: which bytes are read *)
  (** The elements read from the proof, in order. *)
  Definition elements (es : list (ev F M)) : list (M + F) :=
    flat_map (fun e => match e with EvPoint P => [@Datatypes.inl M F P] | EvScalar s => [@Datatypes.inr M F s] | _ => [] end) es.
  Definition encodes (b : list Z) (e : M + F) : Prop :=
    match e with
    | Datatypes.inl P => length b = PT /\ pt_decode b = Some P
    | Datatypes.inr s => length b = SC /\ sc_decode b = Some s
    end.
  (** The bytes in front of the unread rest are the encodings of the elements read; the
      rest does not begin with the encoding of a point. *)
  Theorem C28_layout key instances t p t' : (1 <= PT)%nat -> wf_vk vk -> build key instances t = Some (p, t') ->
    exists blocks, t_rest t = concat blocks ++ t_rest t' /\ Forall2 encodes blocks (elements (protocol vk p)) /\
      forall P, ~ starts PT pt_decode (t_rest t') P.
  Proof.
    intros H1 H2 E. apply C45_reader_runs_protocol in E as (_ & _ & H); auto.
    assert (G : forall es t t', follows es t t' -> exists blocks, t_rest t = concat blocks ++ t_rest t' /\ Forall2 encodes blocks (elements es)).
    { clear. induction es as [|e es IH]; intros t t' H.
      - cbn in H. subst. exists []. split; [reflexivity|constructor].
      - destruct H as (t1 & S & H). apply IH in H as (bs & E & Q). destruct e; cbn in S; cbn [elements flat_map app].
        + subst t1. exists bs. auto.
        + subst t1. exists bs. auto.
        + destruct S as [[L D] ->]. cbn [t_rest] in E. exists (firstn PT (t_rest t) :: bs). cbn [concat]. rewrite <- app_assoc, <- E, firstn_skipn. split; [reflexivity|].
          constructor; [|exact Q]. split; [apply firstn_length_le; exact L|exact D].
        + destruct S as [[L D] ->]. cbn [t_rest] in E. exists (firstn SC (t_rest t) :: bs). cbn [concat]. rewrite <- app_assoc, <- E, firstn_skipn. split; [reflexivity|].
          constructor; [|exact Q]. split; [apply firstn_length_le; exact L|exact D].
        + destruct S as (h & _ & ->). exists bs. auto.
        + destruct S as [-> _]. exists bs. auto. }
    destruct (G _ _ _ H) as (blocks & E & Q). exists blocks. split; [exact E|]. split; [exact Q|].
    assert (X : exists front, protocol vk p = front ++ [EvStop; EvChal (p_u p)]).
    { unfold protocol. rewrite app_comm_cons. repeat (rewrite app_assoc). eexists. reflexivity. }
    destruct X as [front X]. rewrite X in H. apply follows_app in H as (t1 & _ & H). destruct H as (t2 & [-> N] & t3 & (h & _ & ->) & ->). exact N.
  Qed.

  (** A longer byte string whose unread part begins with a point is rejected (the claim
      for every longer byte string is refuted below) ... *)
  Theorem C28_extra_point_rejected_partial key instances bytes h r rest h' junk : (1 <= PT)%nat ->
    verify key instances (mkTr bytes h) = Some (r, mkTr rest h') ->
    (exists P, starts PT pt_decode (rest ++ junk) P) -> verify key instances (mkTr (bytes ++ junk) h) = None.
  Proof. intros H1 E. exact (proj2 (verify_trailing F M PT SC pt_decode sc_decode St upd_pt upd_sc sqz vk H1 key instances bytes h r rest h' junk E)). Qed.
  (** ... and any other bytes are ignored: same result, same transcript. *)
  Theorem C28_other_bytes_ignored key instances bytes h r rest h' junk : (1 <= PT)%nat ->
    verify key instances (mkTr bytes h) = Some (r, mkTr rest h') ->
    (forall P, ~ starts PT pt_decode (rest ++ junk) P) -> verify key instances (mkTr (bytes ++ junk) h) = Some (r, mkTr (rest ++ junk) h').
  Proof. intros H1 E. exact (proj1 (verify_trailing F M PT SC pt_decode sc_decode St upd_pt upd_sc sqz vk H1 key instances bytes h r rest h' junk E)). Qed.
End Reader.
Print Assumptions C45_reader_runs_protocol.
Print Assumptions C28_layout.
Print Assumptions C28_extra_point_rejected_partial.
Print Assumptions C28_other_bytes_ignored.

(** ** The challenges are those of the Poseidon sponge of PoseidonSpec.v *)
Section Sponge.
  Variable F : Fld.
  Variable M : Mod F.
  Variables (PT SC : nat).
  Variable pt_decode : list Z -> option M.
  Variable sc_decode : list Z -> option F.
  Variable pt_hash : M -> list F.
  Variable sp : pspec F.
  Variable RATE : nat.
  Variable vk : vkey F M.
  Definition sponge_state := pstate F (mock_chip F).
  Definition sponge_upd : sponge_state -> list F -> sponge_state := update F (mock_chip F).
  Definition sponge_upd_pt (h : sponge_state) (P : M) : sponge_state := sponge_upd h (pt_hash P).
  Definition sponge_upd_sc (h : sponge_state) (s : F) : sponge_state := sponge_upd h [s].
  Definition sponge_sqz : sponge_state -> option (F * sponge_state) := squeeze F (mock_chip F) sp (S RATE) RATE.

  (** The sponge calls of the protocol and the challenges it draws. *)
  Definition absorbs (e : ev F M) : list (hcall F) :=
    match e with
    | EvKey s | EvScalar s => [HUpdate [s]]
    | EvInst P | EvPoint P => [HUpdate (pt_hash P)]
    | EvChal _ => [HSqueeze]
    | EvStop => []
    end.
  Definition drawn (es : list (ev F M)) : list F := flat_map (fun e => match e with EvChal c => [c] | _ => [] end) es.

  (** Every challenge in the parameters is the sponge's answer to everything absorbed
      before it, in protocol order. *)
  Theorem C45_challenges_from_sponge key instances bytes init p t' : (1 <= PT)%nat -> wf_vk vk -> wf_spec sp RATE -> length init = S RATE ->
    build_params F M PT SC pt_decode sc_decode sponge_state sponge_upd_pt sponge_upd_sc sponge_sqz vk key instances
      (mkTr bytes (mkP (A := mock_chip F) init [])) = Some (p, t') ->
    drawn (protocol vk p) = fst (history sp RATE (flat_map absorbs (protocol vk p)) init []).
  Proof.
    intros H1 H2 W L E. apply C45_reader_runs_protocol in E as (_ & _ & H); auto.
    assert (G : forall es t t', follows F M PT SC pt_decode sc_decode sponge_state sponge_upd_pt sponge_upd_sc sponge_sqz es t t' ->
      run_calls F (mock_chip F) sp (S RATE) RATE (map mock_call (flat_map absorbs es)) (t_hash t) = Some (drawn es, t_hash t')).
    { clear. induction es as [|e es IH]; intros t t' H.
      - cbn in H. subst. reflexivity.
      - destruct H as (t1 & S & H). apply IH in H. destruct e; cbn in S; cbn [flat_map absorbs app map drawn mock_call run_calls].
        + subst t1. exact H.
        + subst t1. exact H.
        + destruct S as [_ ->]. exact H.
        + destruct S as [_ ->]. exact H.
        + destruct S as (h & X & ->). cbn [t_hash] in H.
          change (match sponge_sqz (t_hash t) with
                  | Some (v, q) => match run_calls F (mock_chip F) sp (Datatypes.S RATE) RATE (map mock_call (flat_map absorbs es)) q with
                                   | Some (vs, q) => Some (v :: vs, q) | None => None end
                  | None => None end = Some (c :: drawn es, t_hash t')).
          change (sponge_sqz (t_hash t) = Some (c, h)) in X. rewrite X, H. reflexivity.
        + destruct S as [-> _]. exact H. }
    apply G in H. cbn [t_hash] in H. destruct (mock_history F sp RATE W init (flat_map absorbs (protocol vk p)) L) as [q Q].
    assert (N : poseidon_new F (mock_chip F) init = Some (mkP (A := mock_chip F) init [])).
    { unfold poseidon_new. assert (C : cmap F (mock_chip F) (c_const (mock_chip F)) init = Some init). { clear. induction init as [|x l IH]; [reflexivity|]. change (match cmap F (mock_chip F) (c_const (mock_chip F)) l with Some ys => Some (x :: ys) | None => None end = Some (x :: l)). now rewrite IH. }
      rewrite C. reflexivity. }
    rewrite N in Q. cbv beta iota delta [cbind mock_chip] in Q. unfold sponge_state in *. cbv delta [mock_chip] in H. cbv delta [mock_chip] in Q. rewrite H in Q. congruence.
  Qed.
End Sponge.
Print Assumptions C45_challenges_from_sponge.

(** ** A concrete instance: two phases, one gate, three permutation columns in two
    chunks, one lookup, domain of size 4; one byte per element; rate-2 sponge. *)
Definition toy_vk : vkey F101 (self_mod F101) :=
  mkVk (M := self_mod F101) (f101 7) 2 1 [0; 1]%nat [0; 1]%nat [0]%nat
    [([EAdvice 0], [EFixed 0])] [(CAdvice, 0); (CAdvice, 1); (CFixed, 0)]%nat 4 2 1
    [(0%nat, 0%Z)] [(0%nat, 0%Z); (1%nat, 0%Z); (0%nat, 1%Z)] [(0%nat, 0%Z)]
    [f101 73; f101 74; f101 75] [f101 71]
    [[ESum (EProd (EAdvice 0) (EChallenge 0)) (ENeg (EScaled (EFixed 0) (f101 3)))]] (f101 10) (f101 94) 4.
Definition byte_elem (b : list Z) : option F101 := match b with [z] => if (0 <=? z)%Z && (z <? 101)%Z then Some (f101 z) else None | _ => None end.
Definition byte_hash (P : F101) : list F101 := [P; fmul P P].
Definition f101_spec : pspec F101 :=
  mkSpec F101 4 [[f101 1; f101 2; f101 3]; [f101 4; f101 5; f101 6]; [f101 7; f101 8; f101 9]] [f101 10] [[f101 11; f101 12; f101 13]]
    [[f101 2; f101 1; f101 1]; [f101 1; f101 2; f101 1]; [f101 1; f101 1; f101 2]] [[f101 1; f101 2; f101 3]; [f101 3; f101 1; f101 2]; [f101 2; f101 3; f101 1]]
    [([f101 3; f101 1; f101 4], [f101 1; f101 5])].
Definition f101_init : list F101 := [f101 64; f101 0; f101 0].
Notation toy_start bytes := (mkTr bytes (mkP (A := mock_chip F101) f101_init [])).
Notation toy_build := (build_params F101 (self_mod F101) 1 1 byte_elem byte_elem
  (sponge_state F101) (sponge_upd_pt F101 (self_mod F101) byte_hash) (sponge_upd_sc F101) (sponge_sqz F101 f101_spec 2) toy_vk).
Notation toy_verify := (verify_single_proof_no_eval F101 (self_mod F101) 1 1 byte_elem byte_elem
  (sponge_state F101) (sponge_upd_pt F101 (self_mod F101) byte_hash) (sponge_upd_sc F101) (sponge_sqz F101 f101_spec 2) toy_vk).
Definition toy_bytes : list Z := map Z.of_nat (seq 1 33).
Lemma toy_vk_wf : wf_vk toy_vk.
Proof.
  unfold wf_vk. cbn. split; [repeat constructor; cbn; intuition discriminate|]. split; [reflexivity|]. split; [reflexivity|].
  split; [intros x H; exact H|]. split; [intros x [<-|[]]; now left|]. split; [lia|]. split; [discriminate|]. lia.
Qed.
Definition same (a b : list F101) : bool := if list_eq_dec (@feq_dec F101) a b then true else false.
Lemma same_eq a b : same a b = true -> a = b.
Proof. unfold same. destruct (list_eq_dec _ a b); [auto|discriminate]. Qed.
Definition all_read {X} (check : X -> bool) (o : option (X * tr (sponge_state F101))) : bool :=
  match o with Some (x, t) => check x && match t_rest t with [] => true | _ => false end | None => false end.
Lemma all_read_ok {X} check (o : option (X * tr (sponge_state F101))) : all_read check o = true ->
  exists x h, o = Some (x, mkTr [] h) /\ check x = true.
Proof.
  destruct o as [[x [rest h]]|]; [|discriminate]. cbn. intro H. apply andb_prop in H as [H1 H2]. destruct rest; [|discriminate]. exists x, h. auto.
Qed.
Example C45_example : exists p t', toy_build "a_p0" [[f101 51]] (toy_start toy_bytes) = Some (p, t') /\ t_rest t' = [] /\
  concat (p_advice_commitments p) = [f101 1; f101 2] /\ p_w p = [f101 30; f101 31; f101 32; f101 33] /\
  length (drawn F101 (self_mod F101) (protocol toy_vk p)) = 8%nat.
Proof.
  destruct (all_read_ok (fun p : params F101 (self_mod F101) => same (concat (p_advice_commitments p)) [f101 1; f101 2] && same (p_w p) [f101 30; f101 31; f101 32; f101 33]
    && (length (drawn F101 (self_mod F101) (protocol toy_vk p)) =? 8)%nat) (toy_build "a_p0" [[f101 51]] (toy_start toy_bytes))) as (p & h & E & C);
    [vm_compute; reflexivity|].
  apply andb_prop in C as [C C3]. apply andb_prop in C as [C1 C2]. apply same_eq in C1, C2. apply Nat.eqb_eq in C3.
  exists p, (mkTr [] h). exact (conj E (conj eq_refl (conj C1 (conj C2 C3)))).
Qed.
Example C45_example_sponge : wf_spec f101_spec 2 /\ length f101_init = 3%nat.
Proof. split; [|reflexivity]. unfold wf_spec, f101_spec. cbn. repeat split; try lia; try discriminate; repeat constructor. Qed.

(** The same proof is accepted with a byte appended that encodes nothing. *)
Theorem C28_refuted : exists key instances bytes junk r t1 t2,
  junk <> [] /\ toy_verify key instances (toy_start bytes) = Some (r, t1) /\ t_rest t1 = [] /\
  toy_verify key instances (toy_start (bytes ++ junk)) = Some (r, t2) /\ t_hash t2 = t_hash t1.
Proof.
  destruct (all_read_ok (fun _ => true) (toy_verify "a_p0" [[f101 51]] (toy_start toy_bytes))) as (r & h1 & H & _); [vm_compute; reflexivity|].
  exists "a_p0"%string, [[f101 51]], toy_bytes, [200%Z], r, (mkTr [] h1), (mkTr [200%Z] h1).
  assert (J : forall P, ~ starts 1 byte_elem ([] ++ [200%Z]) P) by (intros P [_ D]; cbn in D; discriminate).
  assert (J0 : [200%Z] <> []) by discriminate.
  refine (conj J0 (conj H (conj eq_refl (conj _ eq_refl)))).
  exact (C28_other_bytes_ignored F101 (self_mod F101) 1 1 byte_elem byte_elem (sponge_state F101) (sponge_upd_pt F101 (self_mod F101) byte_hash) (sponge_upd_sc F101) (sponge_sqz F101 f101_spec 2)
    toy_vk "a_p0" [[f101 51]] toy_bytes (mkP (A := mock_chip F101) f101_init []) r [] h1 [200%Z] (le_n 1) H J).
Qed.
Print Assumptions C28_refuted.
Example C28_example : exists r h, toy_verify "a_p0" [[f101 51]] (toy_start toy_bytes) = Some (r, mkTr [] h) /\
  starts 1 byte_elem ([] ++ [5%Z]) (f101 5).
Proof.
  destruct (all_read_ok (fun _ => true) (toy_verify "a_p0" [[f101 51]] (toy_start toy_bytes))) as (r & h1 & H & _); [vm_compute; reflexivity|].
  exists r, h1. split; [exact H|]. split; [cbn; lia|reflexivity].
Qed.

(** * C46: from the proof bytes to the aggregated pair

    [proof_read] (AggregationProofs.v) says that the parameters were read from the bytes of
    the proof by the protocol above, under its key, with the commitments to its public
    inputs.  The aggregation challenge is drawn after one squeeze of every proof
    transcript has been absorbed, and the output is the combination, in powers of that
    challenge, of the accumulators of all proofs. *)
Theorem C46_aggregation_end_to_end (F : Fld) (M : Mod F) (PT SC : nat) pt_decode sc_decode (St : Type)
    (upd_pt : St -> M -> St) (upd_sc : St -> F -> St) (sqz : St -> option (F * St)) (cs : list (circuit_proof F M St)) (h : St) wx wg ins advs :
  (1 <= PT)%nat ->
  Forall (fun c => wf_vk (cp_vk c) /\ (N.to_nat (vk_n (cp_vk c)) <= length (cp_g_lagrange c))%nat) cs ->
  Forall (fun cd => length (pd_instances (snd cd)) = 1%nat /\ exists name i, pd_key (snd cd) = proof_key name i) (all_proofs F M St cs) ->
  NoDup (map (fun cd => pd_key (snd cd)) (all_proofs F M St cs)) ->
  (2 <= length (all_proofs F M St cs))%nat \/ Forall (fun c => vk_perm_columns (cp_vk c) <> [] \/ vk_lookups (cp_vk c) <> []) cs ->
  verify_aggregation_proofs_in_chip F M PT SC pt_decode sc_decode St upd_pt upd_sc sqz cs h = Some (wx, wg, ins, advs) ->
  exists (os : list (params F M * list (query F M) * tr St)) answers c h' c0 rest,
    cs = c0 :: rest /\
    Forall2 (proof_read F M PT SC pt_decode sc_decode St upd_pt upd_sc sqz) (all_proofs F M St cs) os /\
    Forall2 (fun o a => exists h, sqz (t_hash (snd o)) = Some (a, h)) os answers /\
    sqz (fold_left (fun h a => upd_sc h a) answers h) = Some (c, h') /\
    (wx, wg) = combined F M c (map (fun o => let '(p, qs, _) := o in
        (gwc_left (p_u p) (p_w p),
         msub (gwc_right_pt (p_u p) (p_v p) (p_w p) qs) (smul (gwc_right_sc (p_u p) (p_v p) qs) (cp_generator c0)))) os) /\
    ins = concat (map (fun cd => concat (concat (pd_instances (snd cd)))) (all_proofs F M St cs)) /\
    Forall2 (fun o c => nth_error (p_advice_commitments (fst (fst o))) 0 = Some c) os advs.
Proof. intros P H1 H2 H3 H4 E. exact (end_to_end F M PT SC pt_decode sc_decode St upd_pt upd_sc sqz P cs h wx wg ins advs H1 H2 H3 H4 E). Qed.
Print Assumptions C46_aggregation_end_to_end.

Definition toy_circuit : circuit_proof F101 (self_mod F101) (sponge_state F101) :=
  mkCP toy_vk 1 [f101 11; f101 12; f101 13; f101 14] (f101 1)
    [mkPD [[[f101 3; f101 4]]] (toy_start toy_bytes) (proof_key "a" 0); mkPD [[[f101 5]]] (toy_start (rev toy_bytes)) (proof_key "a" 1)].
Example C46_example :
  (wf_vk (cp_vk toy_circuit) /\ (N.to_nat (vk_n (cp_vk toy_circuit)) <= length (cp_g_lagrange toy_circuit))%nat) /\
  NoDup (map (fun cd => pd_key (snd cd)) (all_proofs F101 (self_mod F101) (sponge_state F101) [toy_circuit])) /\
  exists out, verify_aggregation_proofs_in_chip F101 (self_mod F101) 1 1 byte_elem byte_elem
    (sponge_state F101) (sponge_upd_pt F101 (self_mod F101) byte_hash) (sponge_upd_sc F101) (sponge_sqz F101 f101_spec 2) [toy_circuit] (mkP (A := mock_chip F101) f101_init []) = Some out /\
    snd (fst out) = [f101 3; f101 4; f101 5].
Proof.
  split; [split; [exact toy_vk_wf|cbn; lia]|]. split.
  - cbn. constructor; [cbn; intros [H|[]]; discriminate|]. constructor; [intros []|constructor].
  - assert (E : match verify_aggregation_proofs_in_chip F101 (self_mod F101) 1 1 byte_elem byte_elem
      (sponge_state F101) (sponge_upd_pt F101 (self_mod F101) byte_hash) (sponge_upd_sc F101) (sponge_sqz F101 f101_spec 2) [toy_circuit] (mkP (A := mock_chip F101) f101_init []) with
      Some out => same (snd (fst out)) [f101 3; f101 4; f101 5] | None => false end = true) by (vm_compute; reflexivity).
    destruct (verify_aggregation_proofs_in_chip _ _ _ _ _ _ _ _ _ _ _ _) as [out|]; [|discriminate]. exists out. split; [reflexivity|now apply same_eq].
Qed.
