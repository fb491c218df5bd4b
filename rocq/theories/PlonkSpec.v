(** Independent mathematical specification of what the halo2 verifier has to
    check (the PLONK constraint list, the GWC opening equation), written
    directly from the protocol description and not from the Rust code.  The
    only model types used are the records holding the claimed values. *)
From Coq Require Import String ZArith Arith Bool List.
From Verif Require Import Util Algebra Poly Schema Plonk PowLagrange.
Import ListNotations.

Section Spec.
  Variable F : Fld.
  Variable M : Mod F.
  Local Open Scope fld_scope.

  (** Value of a constraint expression under an assignment of the queried cells. *)
  Fixpoint expr_val (fixed advice instance challenge : nat -> F) (e : expr F) : F :=
    match e with
    | EConst c => c
    | ESelector => 0
    | EFixed i => fixed i
    | EAdvice i => advice i
    | EInstance i => instance i
    | EChallenge i => challenge i
    | ENeg a => - expr_val fixed advice instance challenge a
    | ESum a b => expr_val fixed advice instance challenge a + expr_val fixed advice instance challenge b
    | EProd a b => expr_val fixed advice instance challenge a * expr_val fixed advice instance challenge b
    | EScaled a f => expr_val fixed advice instance challenge a * f
    end.

  Definition at_list (l : list F) (i : nat) : F := nth i l 0.

  Definition fprod (l : list F) : F := fold_right fmul 1 l.

  (** e_0 y^(m-1) + e_1 y^(m-2) + ... + e_(m-1) *)
  Definition compress (es : list F) (y : F) : F := feval F (rev es) y.

  Definition or_zero (o : option F) : F := match o with Some v => v | None => 0 end.

  (** Permutation argument (halo2 book, "Permutation argument"), columns split in
      chunks of [c]; [cols] lists (global column index j, (p_j(x), sigma_j(x))). *)
  Definition perm_constraints (sets : list (perm_set F M)) (c : nat) (evals sigmas : list F)
             (l_0 l_last l_blind delta beta gamma x : F) : list F :=
    (match sets with [] => [] | s :: _ => [l_0 * (1 - ps_eval s)] end) ++
    (match sets with [] => [] | s :: _ =>
       let z := ps_eval (last sets s) in [l_last * (z * z - z)] end) ++
    map (fun sp => let '(s, prev) := sp in (ps_eval s - or_zero (ps_last_eval prev)) * l_0)
        (combine (tl sets) sets) ++
    map (fun sc => let '(s, cols) := sc in
           (ps_next_eval s * fprod (map (fun jps => let '(j, (p, sigma)) := jps in p + beta * sigma + gamma) cols)
            - ps_eval s * fprod (map (fun jps => let '(j, (p, sigma)) := jps in p + fpow delta j * beta * x + gamma) cols))
           * (1 - (l_last + l_blind)))
        (combine sets (chunks c (enumerate (combine evals sigmas)))).

  (** Lookup argument (halo2 book, "Lookup argument"); [a], [s] are the
      theta-compressed input and table, primed values are the permuted ones. *)
  Definition lookup_constraints (z_x z_wx a' a'_prev s' a s l_0 l_last l_blind beta gamma : F) : list F :=
    [ l_0 * (1 - z_x);
      l_last * (z_x * z_x - z_x);
      (z_wx * (a' + beta) * (s' + gamma) - z_x * (a + beta) * (s + gamma)) * (1 - (l_last + l_blind));
      l_0 * (a' - s');
      (a' - s') * (a' - a'_prev) * (1 - (l_last + l_blind)) ].

  (** All constraints of proof [k] of a verification instance. *)
  Definition proof_constraints (p : params F M) (l_0 l_last l_blind : F) (k : nat) : list F :=
    let adv := at_list (nth k (p_advice_evals p) []) in
    let ins := at_list (nth k (p_instance_evals p) []) in
    let fix_ := at_list (p_fixed_evals p) in
    let ch := at_list (p_challenges p) in
    let ev := expr_val fix_ adv ins ch in
    map ev (concat (p_gates p)) ++
    (match nth_error (p_permutation p) k with
     | None => []
     | Some pe => perm_constraints (pe_sets pe) (pe_chunk_len pe) (pe_evals pe) (p_permutation_evals p)
                                   l_0 l_last l_blind (p_delta p) (p_beta p) (p_gamma p) (p_x p)
     end) ++
    flat_map (fun le =>
                lookup_constraints (le_product_eval le) (le_product_next_eval le)
                                   (le_permuted_input_eval le) (le_permuted_input_inv_eval le)
                                   (le_permuted_table_eval le)
                                   (compress (map ev (le_input le)) (p_theta p))
                                   (compress (map ev (le_table le)) (p_theta p))
                                   l_0 l_last l_blind (p_beta p) (p_gamma p))
             (nth k (p_lookup p) []).

  Definition all_constraints (p : params F M) (l_0 l_last l_blind : F) : list F :=
    flat_map (proof_constraints p l_0 l_last l_blind) (seq 0 (length (p_advice_evals p))).

  (** What one opening query claims: the commitment [fst] opens at the point to the value [snd]. *)
  Definition claim (q : query F M) : M * F := (pt_of (q_s q), sc_of (q_s q)).

  (** sum_i x^i a_i over a module *)
  Definition msum_pow (as_ : list M) (x : F) : M := peval as_ x.

  (** Distinct rotations of a query list, in order of first appearance. *)
  Fixpoint first_rotations (seen : list Z) (qs : list (query F M)) : list Z :=
    match qs with
    | [] => []
    | q :: qs' => if existsb (Z.eqb (q_rotation q)) seen then first_rotations seen qs'
                  else q_rotation q :: first_rotations (q_rotation q :: seen) qs'
    end.
  Definition rotations (qs : list (query F M)) : list Z := first_rotations [] qs.
  Definition at_rotation (qs : list (query F M)) (r : Z) : list (query F M) :=
    filter (fun q => Z.eqb (q_rotation q) r) qs.
  (** Evaluation point of a rotation group: the point of its first query. *)
  Definition rotation_point (qs : list (query F M)) (r : Z) : F :=
    match at_rotation qs r with [] => 0 | q :: _ => q_point q end.

  (** GWC: sum_i u^i W_i  and
      sum_i u^i (z_i W_i + sum_j v^j C_ij) - (sum_i u^i sum_j v^j e_ij) G *)
  Definition gwc_left (u : F) (w : list M) : M := msum_pow w u.
  Definition gwc_right_pt (u v : F) (w : list M) (qs : list (query F M)) : M :=
    msum_pow (map (fun rw => let '(r, W) := rw in
                    madd (smul (rotation_point qs r) W)
                         (msum_pow (map (fun q => fst (claim q)) (at_rotation qs r)) v))
                  (combine (rotations qs) w)) u.
  Definition gwc_right_sc (u v : F) (qs : list (query F M)) : F :=
    feval F (map (fun r => feval F (map (fun q => snd (claim q)) (at_rotation qs r)) v) (rotations qs)) u.
End Spec.

Arguments expr_val {F} _ _ _ _ _. Arguments at_list {F} _ _. Arguments fprod {F} _. Arguments compress {F} _ _.
Arguments or_zero {F} _. Arguments perm_constraints {F M} _ _ _ _ _ _ _ _ _ _ _.
Arguments lookup_constraints {F} _ _ _ _ _ _ _ _ _ _ _ _. Arguments proof_constraints {F M} _ _ _ _ _.
Arguments all_constraints {F M} _ _ _ _. Arguments claim {F M} _. Arguments msum_pow {F M} _ _.
Arguments first_rotations {F M} _ _. Arguments rotations {F M} _. Arguments at_rotation {F M} _ _.
Arguments rotation_point {F M} _ _. Arguments gwc_left {F M} _ _. Arguments gwc_right_pt {F M} _ _ _ _.
Arguments gwc_right_sc {F M} _ _ _.
