(** Specification of the proof reader: the order in which a proof is absorbed, read and
    challenged, written down from the fields of the resulting parameters. *)
From Coq Require Import String ZArith NArith Arith Bool List.
From Verif Require Import Util Algebra Schema Plonk BuildParams.
Import ListNotations.

Section Spec.
  Variable F : Fld.
  Variable M : Mod F.

  Inductive ev :=
  | EvKey (s : F)        (* absorb the digest of the verifying key *)
  | EvInst (P : M)       (* absorb an instance commitment *)
  | EvPoint (P : M)      (* read a point from the proof and absorb it *)
  | EvScalar (s : F)     (* read a scalar from the proof and absorb it *)
  | EvChal (c : F)       (* draw a challenge *)
  | EvStop.              (* no further point can be read *)

  (** The entries of [l] whose phase (in the parallel list [phases]) is [ph]. *)
  Definition of_phase {X} (ph : nat) (phases : list nat) (l : list X) : list X :=
    map snd (filter (fun x => Nat.eqb ph (fst x)) (combine phases l)).

  Definition set_evals (s : perm_set F M) : list F :=
    ps_eval s :: ps_next_eval s :: match ps_last_eval s with Some e => [e] | None => [] end.
  Definition lookup_evals (l : lookup_evaluated F M) : list F :=
    [le_product_eval l; le_product_next_eval l; le_permuted_input_eval l; le_permuted_input_inv_eval l; le_permuted_table_eval l].

  (** The PLONK protocol, round by round. *)
  Definition protocol (vk : vkey F M) (p : params F M) : list ev :=
    let sets := flat_map pe_sets (p_permutation p) in
    let lookups := concat (p_lookup p) in
    EvKey (vk_hash vk) :: map EvInst (concat (p_instance_commitments p)) ++
    flat_map (fun ph => map EvPoint (flat_map (of_phase ph (vk_advice_phase vk)) (p_advice_commitments p)) ++
                        map EvChal (of_phase ph (vk_challenge_phase vk) (p_challenges p))) (vk_phases vk) ++
    [EvChal (p_theta p)] ++
    map EvPoint (flat_map (fun l => [le_permuted_input_commitment l; le_permuted_table_commitment l]) lookups) ++
    [EvChal (p_beta p); EvChal (p_gamma p)] ++
    map EvPoint (map ps_commitment sets ++ map le_product_commitment lookups ++ [p_random_commitment p]) ++
    [EvChal (p_y p)] ++
    map EvPoint (p_vanish_commitments p) ++
    [EvChal (p_x p)] ++
    map EvScalar (concat (p_instance_evals p) ++ concat (p_advice_evals p) ++ p_fixed_evals p ++ [p_random_eval p] ++
                  p_permutation_evals p ++ flat_map set_evals sets ++ flat_map lookup_evals lookups) ++
    [EvChal (p_v p)] ++
    map EvPoint (p_w p) ++
    [EvStop; EvChal (p_u p)].

  (** The shape that the verifying key prescribes for [k] proofs. *)
  Definition all_len {X} (n : nat) (l : list (list X)) : Prop := Forall (fun x => length x = n) l.
  Definition shaped (vk : vkey F M) (k : nat) (p : params F M) : Prop :=
    let sets := length (chunks (vk_degree vk - 2) (vk_perm_columns vk)) in
    length (p_advice_commitments p) = k /\ all_len (vk_num_advice vk) (p_advice_commitments p) /\
    length (p_challenges p) = vk_num_challenges vk /\
    length (p_lookup p) = k /\ all_len (length (vk_lookups vk)) (p_lookup p) /\
    length (p_permutation p) = k /\ all_len sets (map pe_sets (p_permutation p)) /\
    length (p_vanish_commitments p) = vk_quotient_degree vk /\
    length (p_instance_evals p) = k /\ all_len (length (vk_instance_queries vk)) (p_instance_evals p) /\
    length (p_advice_evals p) = k /\ all_len (length (vk_advice_queries vk)) (p_advice_evals p) /\
    length (p_fixed_evals p) = length (vk_fixed_queries vk) /\
    length (p_permutation_evals p) = length (vk_perm_commitments vk).

  (** What a well-formed constraint system and domain satisfy: every phase is listed once,
      every column and challenge has a phase in the list, the domain generator is not
      zero and the domain size fits. *)
  Definition wf_vk (vk : vkey F M) : Prop :=
    NoDup (vk_phases vk) /\ length (vk_advice_phase vk) = vk_num_advice vk /\ length (vk_challenge_phase vk) = vk_num_challenges vk /\
    incl (vk_advice_phase vk) (vk_phases vk) /\ incl (vk_challenge_phase vk) (vk_phases vk) /\
    (3 <= vk_degree vk)%nat /\ vk_omega vk <> f0 /\ (1 <= vk_n vk < 2 ^ 31)%N.

  (** What the key and the position determine in the lookups of proof [i]. *)
  Definition lookups_static (vk : vkey F M) (key : string) (i : nat) (ls : list (lookup_evaluated F M)) : Prop :=
    length ls = length (vk_lookups vk) /\
    forall j l a, nth_error ls j = Some l -> nth_error (vk_lookups vk) j = Some a ->
      le_key l = (key ++ "_" ++ fmt_nat i ++ "_" ++ fmt_nat j)%string /\ le_input l = fst a /\ le_table l = snd a.
  (** The opening of a permuted column: the evaluation of its first query at rotation 0. *)
  Definition opened_cur (qs : list (nat * Z)) (evals : list F) (column : nat) (e : F) : Prop :=
    exists i, nth_error qs i = Some (column, 0%Z) /\ (forall j, (j < i)%nat -> nth_error qs j <> Some (column, 0%Z)) /\
      nth_error evals i = Some e.
  Definition permuted_eval (vk : vkey F M) (advice instance fixed : list F) (c : col_kind * nat) (e : F) : Prop :=
    match fst c with
    | CAdvice => opened_cur (vk_advice_queries vk) advice (snd c) e
    | CFixed => opened_cur (vk_fixed_queries vk) fixed (snd c) e
    | CInstance => opened_cur (vk_instance_queries vk) instance (snd c) e
    end.
  (** ... and in the permutation argument: only the last set has no third evaluation. *)
  Definition permutation_static (vk : vkey F M) (key : string) (p : params F M) (i : nat) (pe : perm_evaluated F M) : Prop :=
    pe_key pe = (key ++ "_" ++ fmt_nat i)%string /\ pe_blinding_factors pe = vk_blinding vk /\ pe_x pe = p_x p /\
    pe_chunk_len pe = (vk_degree vk - 2)%nat /\
    (forall j s, nth_error (pe_sets pe) j = Some s -> (ps_last_eval s = None <-> S j = length (pe_sets pe))) /\
    exists advice instance, nth_error (p_advice_evals p) i = Some advice /\ nth_error (p_instance_evals p) i = Some instance /\
      Forall2 (permuted_eval vk advice instance (p_fixed_evals p)) (vk_perm_columns vk) (pe_evals pe).

  (** Everything in the parameters that is not read from the proof or drawn. *)
  Definition determined (vk : vkey F M) (key : string) (instances : list (list M)) (p : params F M) : Prop :=
    p_key p = key /\ p_gates p = vk_gates vk /\ p_l p = (vk_blinding vk + 1)%nat /\ p_instance_commitments p = instances /\
    p_instance_queries p = vk_instance_queries vk /\ p_advice_queries p = vk_advice_queries vk /\ p_fixed_queries p = vk_fixed_queries vk /\
    p_fixed_commitments p = vk_fixed_commitments vk /\ p_permutation_commitments p = vk_perm_commitments vk /\
    p_delta p = vk_delta vk /\ p_omega p = vk_omega vk /\ p_zero p = f0 /\ p_one p = f1 /\ p_n p = N.iter (vk_n vk) (fadd f1) f0 /\
    p_x_next p = fmul (p_x p) (vk_omega vk) /\ fmul (p_x_last p) (fpow (vk_omega vk) (vk_blinding vk + 1)) = p_x p /\
    fmul (p_x_inv p) (vk_omega vk) = p_x p /\ p_xn p = fpow (p_x p) (N.to_nat (vk_n vk)) /\
    (forall i ls, nth_error (p_lookup p) i = Some ls -> lookups_static vk key i ls) /\
    (forall i pe, nth_error (p_permutation p) i = Some pe -> permutation_static vk key p i pe).
End Spec.
Arguments wf_vk {F M} _. Arguments lookups_static {F M} _ _ _ _. Arguments determined {F M} _ _ _ _. Arguments permuted_eval {F M} _ _ _ _ _ _.
Arguments permutation_static {F M} _ _ _ _ _.
Arguments EvKey {F M} _. Arguments EvInst {F M} _. Arguments EvPoint {F M} _. Arguments EvScalar {F M} _.
Arguments EvChal {F M} _. Arguments EvStop {F M}. Arguments protocol {F M} _ _. Arguments set_evals {F M} _. Arguments lookup_evals {F M} _.
Arguments shaped {F M} _ _ _.

Section Run.
  Variable F : Fld.
  Variable M : Mod F.
  Variables (PT SC : nat).
  Variable pt_decode : list Z -> option M.
  Variable sc_decode : list Z -> option F.
  Variable St : Type.
  Variable upd_pt : St -> M -> St.
  Variable upd_sc : St -> F -> St.
  Variable sqz : St -> option (F * St).

  (** A decodable element at the front of a byte string. *)
  Definition starts {A} (size : nat) (decode : list Z -> option A) (l : list Z) (a : A) : Prop :=
    (size <= length l)%nat /\ decode (firstn size l) = Some a.

  Definition ev_step (e : ev F M) (t t' : tr St) : Prop :=
    match e with
    | EvKey s => t' = mkTr (t_rest t) (upd_sc (t_hash t) s)
    | EvInst P => t' = mkTr (t_rest t) (upd_pt (t_hash t) P)
    | EvPoint P => starts PT pt_decode (t_rest t) P /\ t' = mkTr (skipn PT (t_rest t)) (upd_pt (t_hash t) P)
    | EvScalar s => starts SC sc_decode (t_rest t) s /\ t' = mkTr (skipn SC (t_rest t)) (upd_sc (t_hash t) s)
    | EvChal c => exists h, sqz (t_hash t) = Some (c, h) /\ t' = mkTr (t_rest t) h
    | EvStop => t' = t /\ forall P, ~ starts PT pt_decode (t_rest t) P
    end.
  Fixpoint follows (es : list (ev F M)) (t t' : tr St) : Prop :=
    match es with
    | [] => t' = t
    | e :: es => exists t1, ev_step e t t1 /\ follows es t1 t'
    end.
End Run.
