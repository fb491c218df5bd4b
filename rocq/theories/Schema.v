(** Model of halo2-snark-aggregator-api/src/systems/halo2/evaluation.rs.

    Query schemas are expression trees over commitments (points), claimed
    evaluations and scalars; [eval] turns one into a multi-exponentiation plus
    an optional scalar.  Panics ([unwrap] on [None], failed [assert!]) are the
    result [None].  Context/gas side effects of the chips are not modelled
    here: the chip operations are those of a field and of a module over it
    (the behaviour of MockFieldChip/MockEccChip, mock/arith/{field,ecc}.rs; the
    in-circuit chips are related to these operations in the Gate/Int/Ecc
    files). *)
From Coq Require Import List String Bool.
From Verif Require Import Algebra.
Import ListNotations.

Section Schema.
  Variable F : Fld.
  Variable M : Mod F.

  (** evaluation.rs:8-12, [CommitQuery]. *)
  Record commit_query := mkCQ {
    cq_key : string;
    cq_commitment : option M;
    cq_eval : option F
  }.

  (** evaluation.rs:14-27, [EvaluationQuerySchema]; the boolean next to each
      child caches [has_commitment]. *)
  Inductive schema :=
  | SCommitment (q : commit_query)
  | SEval (q : commit_query)
  | SScalar (s : F)
  | SAdd (l : schema) (lc : bool) (r : schema) (rc : bool)
  | SMul (l : schema) (lc : bool) (r : schema) (rc : bool).

  (** evaluation.rs:30-38, [has_commitment]. *)
  Definition has_commitment (t : schema) : bool :=
    match t with
    | SCommitment _ => true
    | SEval _ => false
    | SScalar _ => false
    | SAdd _ lc _ rc => lc || rc
    | SMul _ lc _ rc => lc || rc
    end.

  (** evaluation.rs:62-72, [Add::add]. *)
  Definition sch_add (a b : schema) : schema := SAdd a (has_commitment a) b (has_commitment b).
  (** evaluation.rs:74-84, [Mul::mul]. *)
  Definition sch_mul (a b : schema) : schema := SMul a (has_commitment a) b (has_commitment b).

  (** One evaluated entry: (key, point, scalar) — evaluation.rs:214. *)
  Definition entry := (string * option M * option F)%type.
  Definition e_key (e : entry) : string := fst (fst e).
  Definition e_pt (e : entry) : option M := snd (fst e).
  Definition e_sc (e : entry) : option F := snd e.

  (** evaluation.rs:257-258, [unwrap_or(one)]. *)
  Definition or_one (s : option F) : F := match s with Some v => v | None => f1 end.

  (** evaluation.rs:251-265: find the entry with the same key and add the
      scalar to it, else push at the end. *)
  Fixpoint merge1 (res : list entry) (ev : entry) : list entry :=
    match res with
    | [] => [ev]
    | p :: res' =>
        if String.eqb (e_key p) (e_key ev)
        then (e_key p, e_pt p, Some (fadd (or_one (e_sc p)) (or_one (e_sc ev)))) :: res'
        else p :: merge1 res' ev
    end.

  (** evaluation.rs:248-266: all entries of one operand in order. *)
  Definition merge (res evs : list entry) : list entry := fold_left merge1 evs res.

  (** evaluation.rs:205-293, [eval_prepare]. *)
  Fixpoint eval_prepare (t : schema) (scalar : option F) : option (list entry) :=
    match t with
    | SCommitment cq =>
        match cq_commitment cq with
        | Some c => Some [(cq_key cq, Some c, scalar)]
        | None => None
        end
    | SEval cq =>
        match cq_eval cq with
        | Some e => Some [(""%string, None, Some (match scalar with Some s => fmul s e | None => e end))]
        | None => None
        end
    | SScalar s =>
        Some [(""%string, None, Some (match scalar with Some sc => fmul s sc | None => s end))]
    | SAdd l lc r rc =>
        if negb lc && negb rc then
          match eval_prepare l None, eval_prepare r None with
          | Some [le], Some [re] =>
              match e_sc le, e_sc re with
              | Some a, Some b =>
                  let sum := fadd a b in
                  Some [(""%string, None,
                         Some (match scalar with Some sc => fmul sc sum | None => sum end))]
              | _, _ => None
              end
          | _, _ => None
          end
        else
          match eval_prepare l scalar, eval_prepare r scalar with
          | Some el, Some er => Some (merge (merge [] el) er)
          | _, _ => None
          end
    | SMul l lc r rc =>
        let go (s : option (list entry)) (rem : option F -> option (list entry)) :=
          match s with
          | Some [se] =>
              match e_sc se with
              | Some v => rem (Some (match scalar with Some sc => fmul sc v | None => v end))
              | None => None
              end
          | _ => None
          end in
        if negb lc then go (eval_prepare l None) (eval_prepare r)
        else go (eval_prepare r None) (eval_prepare l)
    end.

  (** arith/ecc.rs:42-60 (and mock/arith/ecc.rs:106-129), [multi_exp];
      [None] is the [acc.unwrap()] panic on an empty list. *)
  Definition multi_exp (ps : list M) (ss : list F) : option M :=
    fold_left (fun acc c =>
                 let curr := smul (snd c) (fst c) in
                 match acc with None => Some curr | Some a => Some (madd a curr) end)
              (combine ps ss) None.

  (** evaluation.rs:171-203, [eval].  The result is
      (accumulated point, scalar, names of the entries). *)
  Definition eval (t : schema) : option (M * option F * list string) :=
    match eval_prepare t None with
    | None => None
    | Some points =>
        let names := map e_key points in
        let s_found := find (fun b => String.eqb (e_key b) "") points in
        match (match s_found with
               | None => Some None
               | Some b => match e_sc b with Some v => Some (Some v) | None => None end
               end) with
        | None => None
        | Some s =>
            let p_wo_scalar :=
              flat_map (fun b => match e_sc b, e_pt b with None, Some p => [p] | _, _ => [] end) points in
            let pairs :=
              flat_map (fun b => match e_pt b, e_sc b with Some p, Some v => [(p, v)] | _, _ => [] end) points in
            match multi_exp (map fst pairs) (map snd pairs) with
            | None => None
            | Some acc => Some (fold_left madd p_wo_scalar acc, s, names)
            end
        end
    end.

  (** evaluation.rs:295-330, [estimate]. *)
  Fixpoint estimate (t : schema) (scalar : bool) : nat :=
    match t with
    | SCommitment _ => 1
    | SEval _ | SScalar _ => if scalar then 1 else 0
    | SAdd l lc r rc =>
        if negb lc && negb rc then
          (estimate l false + estimate r false + (if scalar then 1 else 0))%nat
        else (estimate l scalar + estimate r scalar)%nat
    | SMul l lc r rc => if negb lc then estimate r true else estimate l true
    end.

  (** ** Specification: what a schema denotes, independently of [eval].

      A schema denotes an element of the trivial square-zero extension of the
      scalar field by the group: a pair (scalar part, point part) with
      (s,p)+(s',p') = (s+s', p+p') and (s,p)(s',p') = (ss', sp'+s'p). *)
  Fixpoint sc_of (t : schema) : F :=
    match t with
    | SCommitment _ => f0
    | SEval q => match cq_eval q with Some e => e | None => f0 end
    | SScalar s => s
    | SAdd l _ r _ => fadd (sc_of l) (sc_of r)
    | SMul l _ r _ => fmul (sc_of l) (sc_of r)
    end.
  Fixpoint pt_of (t : schema) : M :=
    match t with
    | SCommitment q => match cq_commitment q with Some c => c | None => m0 end
    | SEval _ => m0
    | SScalar _ => m0
    | SAdd l _ r _ => madd (pt_of l) (pt_of r)
    | SMul l _ r _ => madd (smul (sc_of l) (pt_of r)) (smul (sc_of r) (pt_of l))
    end.

  (** The tree mentions a commitment somewhere. *)
  Fixpoint mentions (t : schema) : bool :=
    match t with
    | SCommitment _ => true
    | SEval _ | SScalar _ => false
    | SAdd l _ r _ | SMul l _ r _ => mentions l || mentions r
    end.

  (** The tree contains a scalar or evaluation leaf that contributes additively. *)
  Fixpoint has_scalar_part (t : schema) : bool :=
    match t with
    | SCommitment _ => false
    | SEval _ | SScalar _ => true
    | SAdd l _ r _ => has_scalar_part l || has_scalar_part r
    | SMul l _ r _ => if mentions l then has_scalar_part l else has_scalar_part r
    end.

  (** No product of two commitment-bearing factors. *)
  Fixpoint linear (t : schema) : bool :=
    match t with
    | SCommitment _ | SEval _ | SScalar _ => true
    | SAdd l _ r _ => linear l && linear r
    | SMul l _ r _ => linear l && linear r && negb (mentions l && mentions r)
    end.

  (** Built with the overloaded [+]/[*] (so the cached flags are right) out of
      commitments that carry a point under a non-empty key given by [K], and
      evaluations that carry a value. *)
  Fixpoint well_built (K : string -> M) (t : schema) : Prop :=
    match t with
    | SCommitment q => cq_commitment q = Some (K (cq_key q)) /\ cq_key q <> ""%string
    | SEval q => cq_eval q <> None
    | SScalar _ => True
    | SAdd l lc r rc | SMul l lc r rc =>
        well_built K l /\ well_built K r /\ lc = has_commitment l /\ rc = has_commitment r
    end.

  (** Some commitment is multiplied by a scalar. *)
  Fixpoint scales_commitment (t : schema) : bool :=
    match t with
    | SCommitment _ | SEval _ | SScalar _ => false
    | SAdd l _ r _ => scales_commitment l || scales_commitment r
    | SMul l _ r _ => mentions l || mentions r
    end.

  (** The keys of the commitments mentioned, in textual order. *)
  Fixpoint commit_keys (t : schema) : list string :=
    match t with
    | SCommitment q => [cq_key q]
    | SEval _ | SScalar _ => []
    | SAdd l _ r _ | SMul l _ r _ => commit_keys l ++ commit_keys r
    end.
End Schema.

Arguments mkCQ {F M} _ _ _.
Arguments cq_key {F M} _. Arguments cq_commitment {F M} _. Arguments cq_eval {F M} _.
Arguments SCommitment {F M} _. Arguments SEval {F M} _. Arguments SScalar {F M} _.
Arguments SAdd {F M} _ _ _ _. Arguments SMul {F M} _ _ _ _.
Arguments has_commitment {F M} _. Arguments sch_add {F M} _ _. Arguments sch_mul {F M} _ _.
Arguments eval_prepare {F M} _ _. Arguments eval {F M} _.
Arguments sc_of {F M} _. Arguments pt_of {F M} _. Arguments mentions {F M} _.
Arguments has_scalar_part {F M} _. Arguments linear {F M} _. Arguments well_built {F M} _ _.
Arguments scales_commitment {F M} _. Arguments commit_keys {F M} _.
Arguments merge1 {F M} _ _. Arguments merge {F M} _ _. Arguments or_one {F} _.
Arguments e_key {F M} _. Arguments e_pt {F M} _. Arguments e_sc {F M} _.
Arguments multi_exp {F M} _ _. Arguments estimate {F M} _ _.
