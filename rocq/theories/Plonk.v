(** Model of the verifier's PLONK logic in halo2-snark-aggregator-api:
    arith/{ast,field,ecc}.rs, systems/halo2/{lagrange,expression,permutation,
    lookup,vanish,params,multiopen,verify}.rs.

    The chips are interpreted by the operations of a field [F] and a module [M]
    over it, i.e. as MockFieldChip/MockEccChip do (mock/arith/{field,ecc}.rs).
    [None] is a panic or an [Err] (division by zero, failed [assert!], [unwrap]
    on [None], out-of-range index).  The context/row bookkeeping is not
    modelled. *)
From Coq Require Import String ZArith NArith Arith Bool List.
From Verif Require Import Util Algebra Schema.
Import ListNotations.

Section Plonk.
  Variable F : Fld.
  Variable M : Mod F.
  Notation schema := (schema F M).
  Notation commit_query := (commit_query F M).

  (** mock/arith/field.rs:110-117, [div]: [b.invert().unwrap()]. *)
  Definition chip_div (a b : F) : option F :=
    if feq_dec b f0 then None else Some (fmul a (finv b)).

  (** ** arith/ast.rs *)
  (** ast.rs:4-10, [FieldArithHelper]. *)
  Inductive ast :=
  | AVal (v : F) | AAdd (a b : ast) | ASub (a b : ast) | AMul (a b : ast) | ADiv (a b : ast).
  (** ast.rs:13-37, [FieldArithHelper::eval].  The [arith_ast!] macro
      (ast.rs:78-86) is applied by hand where it is used below. *)
  Fixpoint ast_eval (t : ast) : option F :=
    match t with
    | AVal v => Some v
    | AAdd a b => do x <- ast_eval a; do y <- ast_eval b; Some (fadd x y)
    | ASub a b => do x <- ast_eval a; do y <- ast_eval b; Some (fsub x y)
    | AMul a b => do x <- ast_eval a; do y <- ast_eval b; Some (fmul x y)
    | ADiv a b => do x <- ast_eval a; do y <- ast_eval b; chip_div x y
    end.

  (** ** arith/field.rs *)
  (** field.rs:57-66, [mul_add]. *)
  Definition mul_add (a b c : F) : F := fadd (fmul a b) c.
  (** field.rs:68-81, [mul_add_accumulate]. *)
  Definition mul_add_accumulate (a : list F) (b : F) : F :=
    fold_left (fun acc v => mul_add acc b v) a f0.
  (** mock/arith/field.rs:127-138, [sum_with_coeff_and_constant]. *)
  Definition sum_with_coeff_and_constant (a : list (F * F)) (b : F) : F :=
    fold_left (fun acc xc => fadd acc (fmul (fst xc) (snd xc))) a b.
  (** field.rs:37-48, [sum_with_constant]. *)
  Definition sum_with_constant (a : list F) (b : F) : F :=
    sum_with_coeff_and_constant (map (fun x => (x, f1)) a) b.

  (** field.rs:91-94: [while second_bit <= exponent { second_bit <<= 1 }] on
      u32 (the shifted-out bit is lost); [None] when [fuel] iterations do not
      end the loop. *)
  Fixpoint pow_top (fuel : nat) (exponent second_bit : N) : option N :=
    if N.leb second_bit exponent then
      match fuel with
      | O => None
      | S fuel => pow_top fuel exponent ((second_bit * 2) mod (2 ^ 32))%N
      end
    else Some second_bit.
  (** field.rs:96-102: square and multiply; [fuel] as above. *)
  Fixpoint pow_loop (fuel : nat) (base : F) (exponent second_bit : N) (acc : F) : option F :=
    if N.eqb second_bit 0 then Some acc
    else match fuel with
         | O => None
         | S fuel =>
             let acc := fmul acc acc in
             let acc := if N.eqb (N.land exponent second_bit) 0 then acc else fmul acc base in
             pow_loop fuel base exponent (N.div second_bit 2) acc
         end.
  (** field.rs:83-104, [pow_constant]; [exponent] is a u32. *)
  Definition pow_constant (fuel : nat) (base : F) (exponent : N) : option F :=
    if N.leb 1 exponent then
      do sb <- pow_top fuel exponent 1;
      pow_loop fuel base exponent (N.div sb 4) base
    else None.
  (** Loop bound used wherever another function calls [pow_constant]: 64
      iterations are more than a terminating run on u32 needs. *)
  Definition POW_FUEL : nat := 64.

  (** ** systems/halo2/lagrange.rs *)
  (** lagrange.rs:27-31: [ws[i] = ws[i-1] / omega]. *)
  Fixpoint lagrange_ws (l : nat) (w omega : F) : option (list F) :=
    match l with
    | O => Some [w]
    | S l => do w' <- chip_div w omega; do r <- lagrange_ws l w' omega; Some (w :: r)
    end.
  (** lagrange.rs:17-39, [get_lagrange_commits]. *)
  Definition get_lagrange_commits (l : nat) (n x xn one omega : F) : option (list F) :=
    do ws <- lagrange_ws l one omega;
    mapM (fun wi => ast_eval
            (ADiv (AMul (ADiv (AVal wi) (AVal n)) (ASub (AVal xn) (AVal one)))
                  (ASub (AVal x) (AVal wi)))) ws.

  (** ** systems/halo2/expression.rs *)
  (** halo2 [Expression]; queries carry their index in the evaluation list. *)
  Inductive expr :=
  | EConst (c : F) | ESelector | EFixed (i : nat) | EAdvice (i : nat) | EInstance (i : nat)
  | EChallenge (i : nat) | ENeg (a : expr) | ESum (a b : expr) | EProd (a b : expr)
  | EScaled (a : expr) (f : F).

  (** expression.rs:18-113, [chip_evaluate]; list indexing panics out of range. *)
  Fixpoint chip_evaluate (fixed advice instance challenge : list F) (zero : F) (e : expr) : option F :=
    match e with
    | EConst c => Some c
    | ESelector => None
    | EFixed i => nth_error fixed i
    | EAdvice i => nth_error advice i
    | EInstance i => nth_error instance i
    | EChallenge i => nth_error challenge i
    | ENeg a =>
        do a <- chip_evaluate fixed advice instance challenge zero a;
        ast_eval (ASub (AVal zero) (AVal a))
    | ESum a b =>
        do a <- chip_evaluate fixed advice instance challenge zero a;
        do b <- chip_evaluate fixed advice instance challenge zero b;
        ast_eval (AAdd (AVal a) (AVal b))
    | EProd a b =>
        do a <- chip_evaluate fixed advice instance challenge zero a;
        do b <- chip_evaluate fixed advice instance challenge zero b;
        ast_eval (AMul (AVal a) (AVal b))
    | EScaled a f =>
        do a <- chip_evaluate fixed advice instance challenge zero a;
        ast_eval (AMul (AVal f) (AVal a))
    end.

  (** ** systems/halo2/evaluation.rs:92-127 *)
  Record query := mkQ { q_point : F; q_rotation : Z; q_s : schema }.
  (** evaluation.rs:100-118, [EvaluationQuery::new]. *)
  Definition query_new (rotation : Z) (key : string) (point : F) (commitment : M) (eval : F) : query :=
    let s := mkCQ key (Some commitment) (Some eval) in
    mkQ point rotation (sch_add (SCommitment s) (SEval s)).

  (** ** systems/halo2/permutation.rs *)
  (** permutation.rs:9-14, [EvaluatedSet]. *)
  Record perm_set := mkPS {
    ps_commitment : M; ps_eval : F; ps_next_eval : F; ps_last_eval : option F
  }.
  (** permutation.rs:24-31, [Evaluated]. *)
  Record perm_evaluated := mkPE {
    pe_key : string; pe_blinding_factors : nat; pe_x : F; pe_sets : list perm_set;
    pe_evals : list F; pe_chunk_len : nat
  }.

  Local Open Scope string_scope.

  (** permutation.rs:33-51, [CommonEvaluated::queries]. *)
  Definition perm_common_queries (key : string) (commitments : list M) (evals : list F) (x : F) : list query :=
    map (fun ice => let '(i, (c, e)) := ice in
                    query_new 0 (key ++ "_permutation_commitments" ++ fmt_nat i) x c e)
        (enumerate (combine commitments evals)).

  (** permutation.rs:121-130: one column of a chunk. *)
  Definition perm_step (beta gamma delta : F) (st : F * F * F) (ep : F * F) : option (F * F * F) :=
    let '(lft, rgt, d) := st in
    let '(eval, permutation_eval) := ep in
    do t2 <- ast_eval (AAdd (AVal eval) (AVal gamma));
    do lft' <- ast_eval (AMul (AAdd (AVal t2) (AMul (AVal beta) (AVal permutation_eval))) (AVal lft));
    do rgt' <- ast_eval (AMul (AAdd (AVal t2) (AVal d)) (AVal rgt));
    do d' <- ast_eval (AMul (AVal delta) (AVal d));
    Some (lft', rgt', d').

  (** permutation.rs:102-133: body of the loop over sets. *)
  Definition perm_chunk (chunk_len : nat) (delta beta gamma one t0 t1 : F)
             (c : nat * (perm_set * list F * list F)) : option F :=
    let '(chunk_index, (set, evals, permutation_evals)) := c in
    do delta_pow <- (if Nat.eqb chunk_index 0 then Some one
                     else pow_constant POW_FUEL delta (N.of_nat (chunk_index * chunk_len) mod 2 ^ 32));
    do d <- ast_eval (AMul (AVal t0) (AVal delta_pow));
    do (l, r, _) <- foldM (perm_step beta gamma delta) (combine evals permutation_evals)
                           (ps_next_eval set, ps_eval set, d);
    ast_eval (AMul (ASub (AVal l) (AVal r)) (AVal t1)).

  (** permutation.rs:54-136, [expressions]. *)
  Definition perm_expressions (pe : perm_evaluated) (permutation_evals : list F)
             (l_0 l_last l_blind delta beta gamma x one : F) : option (list F) :=
    do r1 <- (match pe_sets pe with
              | [] => Some []
              | s :: _ => do e <- ast_eval (AMul (AVal l_0) (ASub (AVal one) (AVal (ps_eval s)))); Some [e]
              end);
    do r2 <- (match rev (pe_sets pe) with
              | [] => Some []
              | s :: _ => let z := ps_eval s in
                  do e <- ast_eval (AMul (AVal l_last) (ASub (AMul (AVal z) (AVal z)) (AVal z))); Some [e]
              end);
    do r3 <- mapM (fun sl => let '(set, last_set) := sl in
                     do prev_last <- ps_last_eval last_set;
                     ast_eval (AMul (ASub (AVal (ps_eval set)) (AVal prev_last)) (AVal l_0)))
                  (combine (skipn 1 (pe_sets pe)) (pe_sets pe));
    do t0 <- ast_eval (AMul (AVal beta) (AVal x));
    do t1 <- ast_eval (ASub (AVal one) (AAdd (AVal l_last) (AVal l_blind)));
    if Nat.eqb (pe_chunk_len pe) 0 then None (* [chunks(0)] panics *)
    else
      do r4 <- mapM (perm_chunk (pe_chunk_len pe) delta beta gamma one t0 t1)
                    (enumerate (combine (combine (pe_sets pe) (chunks (pe_chunk_len pe) (pe_evals pe)))
                                        (chunks (pe_chunk_len pe) permutation_evals)));
      Some (r1 ++ r2 ++ r3 ++ r4)%list.

  (** permutation.rs:138-181, [Evaluated::queries]. *)
  Definition perm_queries (pe : perm_evaluated) (x_next x_last : F) : option (list query) :=
    let key i := pe_key pe ++ "_permutation_product_commitment_" ++ fmt_nat i in
    do lasts <- mapM (fun is => let '(i, s) := is in
                        do e <- ps_last_eval s;
                        Some (query_new (- Z.of_nat (pe_blinding_factors pe + 1)) (key i) x_last (ps_commitment s) e))
                     (skipn 1 (rev (enumerate (pe_sets pe))));
    Some (flat_map (fun is => let '(i, s) := is in
                      [query_new 0 (key i) (pe_x pe) (ps_commitment s) (ps_eval s);
                       query_new 1 (key i) x_next (ps_commitment s) (ps_next_eval s)])
                   (enumerate (pe_sets pe)) ++ lasts)%list.

  (** ** systems/halo2/lookup.rs *)
  (** lookup.rs:14-31, [Committed] and [Evaluated]. *)
  Record lookup_evaluated := mkLE {
    le_key : string; le_input : list expr; le_table : list expr;
    le_permuted_input_commitment : M; le_permuted_table_commitment : M; le_product_commitment : M;
    le_product_eval : F; le_product_next_eval : F; le_permuted_input_eval : F;
    le_permuted_input_inv_eval : F; le_permuted_table_eval : F
  }.

  (** lookup.rs:34-119, [expressions]. *)
  Definition lookup_expressions (le : lookup_evaluated) (fixed instance advice challenges : list F)
             (l_0 l_last l_blind theta beta gamma zero one : F) : option (list F) :=
    let z_wx := AVal (le_product_next_eval le) in
    let z_x := AVal (le_product_eval le) in
    let a_x := AVal (le_permuted_input_eval le) in
    let s_x := AVal (le_permuted_table_eval le) in
    let a_invwx := AVal (le_permuted_input_inv_eval le) in
    let product_eval := AVal (le_product_eval le) in
    do lft <- ast_eval (AMul (AMul z_wx (AAdd a_x (AVal beta))) (AAdd s_x (AVal gamma)));
    do input_evals <- mapM (chip_evaluate fixed advice instance challenges zero) (le_input le);
    let input_eval := mul_add_accumulate input_evals theta in
    do table_evals <- mapM (chip_evaluate fixed advice instance challenges zero) (le_table le);
    let table_eval := mul_add_accumulate table_evals theta in
    do t0 <- ast_eval (ASub (AVal one) (AAdd (AVal l_last) (AVal l_blind)));
    do t1 <- ast_eval (ASub a_x s_x);
    do e1 <- ast_eval (AMul (AVal l_0) (ASub (AVal one) z_x));
    do e2 <- ast_eval (AMul (AVal l_last) (ASub (AMul z_x z_x) z_x));
    do e3 <- ast_eval (AMul (ASub (AVal lft)
                               (AMul (AMul product_eval (AAdd (AVal input_eval) (AVal beta)))
                                     (AAdd (AVal table_eval) (AVal gamma))))
                            (AVal t0));
    do e4 <- ast_eval (AMul (AVal l_0) (AVal t1));
    do e5 <- ast_eval (AMul (AMul (AVal t1) (ASub a_x a_invwx)) (AVal t0));
    Some [e1; e2; e3; e4; e5].

  (** lookup.rs:121-164, [queries]. *)
  Definition lookup_queries (le : lookup_evaluated) (x x_inv x_next : F) : list query :=
    [ query_new 0 (le_key le ++ "_product_commitment") x (le_product_commitment le) (le_product_eval le);
      query_new 0 (le_key le ++ "_permuted_input_commitment") x (le_permuted_input_commitment le) (le_permuted_input_eval le);
      query_new 0 (le_key le ++ "_permuted_table_commitment") x (le_permuted_table_commitment le) (le_permuted_table_eval le);
      query_new (-1) (le_key le ++ "_permuted_input_commitment") x_inv (le_permuted_input_commitment le) (le_permuted_input_inv_eval le);
      query_new 1 (le_key le ++ "_product_commitment") x_next (le_product_commitment le) (le_product_next_eval le) ].

  (** ** systems/halo2/vanish.rs *)
  (** vanish.rs:18-54, [Evaluated::new] followed by vanish.rs:56-72, [queries]. *)
  Definition vanish_queries (expressions : list F) (y xn : F) (random_commitment : M) (random_eval : F)
             (expect_commitments : list M) (one : F) (key : string) (x : F) : option (list query) :=
    do expected_h_eval <-
       ast_eval (ADiv (AVal (mul_add_accumulate expressions y)) (ASub (AVal xn) (AVal one)));
    do h_commitment <-
       reduce (fun acc commitment => sch_add (sch_mul (SScalar xn) acc) commitment)
              (map (fun ic => SCommitment (mkCQ (key ++ "_h_commitment" ++ fmt_nat (fst ic)) (Some (snd ic)) None))
                   (enumerate (rev expect_commitments)));
    Some [ mkQ x 0 (sch_add h_commitment (SScalar expected_h_eval));
           query_new 0 (key ++ "_random_commitment") x random_commitment random_eval ].

  (** ** systems/halo2/params.rs *)
  (** params.rs:8-54, [PlonkCommonSetup] and [VerifierParams]. *)
  Record params := mkParams {
    p_key : string;
    p_gates : list (list expr);
    p_l : nat;
    p_lookup : list (list lookup_evaluated);
    p_permutation : list perm_evaluated;
    p_instance_commitments : list (list M);
    p_instance_evals : list (list F);
    p_instance_queries : list (nat * Z);
    p_challenges : list F;
    p_advice_commitments : list (list M);
    p_advice_evals : list (list F);
    p_advice_queries : list (nat * Z);
    p_fixed_commitments : list M;
    p_fixed_evals : list F;
    p_fixed_queries : list (nat * Z);
    p_permutation_commitments : list M;
    p_permutation_evals : list F;
    p_vanish_commitments : list M;
    p_random_commitment : M;
    p_w : list M;
    p_random_eval : F;
    p_beta : F; p_gamma : F; p_theta : F; p_delta : F;
    p_x : F; p_x_next : F; p_x_last : F; p_x_inv : F; p_xn : F;
    p_y : F; p_u : F; p_v : F; p_omega : F;
    p_zero : F; p_one : F; p_n : F
  }.

  (** params.rs:57-72 and verify.rs:153-167, [x_rotate_omega]/[rotate_omega]. *)
  Definition rotate_omega (x omega : F) (at_ : Z) : option F :=
    do base <- (if Z.ltb at_ 0 then (if feq_dec omega f0 then None else Some (finv omega)) else Some omega);
    let omega_at := fpow base (Z.to_nat (Z.abs at_)) in
    Some (sum_with_coeff_and_constant [(x, omega_at)] f0).

  (** params.rs:165-183, 194-202: column queries. *)
  Definition column_queries (p : params) (suffix : string) (qs : list (nat * Z))
             (commitments : list M) (evals : list F) : option (list query) :=
    mapM (fun iq => let '(query_index, (column, at_)) := iq in
            do pt <- rotate_omega (p_x p) (p_omega p) at_;
            do c <- nth_error commitments column;
            do e <- nth_error evals query_index;
            Some (query_new at_ (p_key p ++ suffix ++ fmt_nat column) pt c e))
         (enumerate qs).

  (** params.rs:98-154: constraint expressions of proof [k]. *)
  Definition proof_expressions (p : params) (l_0 l_last l_blind : F) (k : nat) : option (list F) :=
    do advice_evals <- nth_error (p_advice_evals p) k;
    do instance_evals <- nth_error (p_instance_evals p) k;
    do permutation <- nth_error (p_permutation p) k;
    do lookups <- nth_error (p_lookup p) k;
    do gs <- mapM (chip_evaluate (p_fixed_evals p) advice_evals instance_evals (p_challenges p) (p_zero p))
                  (concat (p_gates p));
    do ps <- perm_expressions permutation (p_permutation_evals p) l_0 l_last l_blind
                              (p_delta p) (p_beta p) (p_gamma p) (p_x p) (p_one p);
    do ls <- mapM (fun le => lookup_expressions le (p_fixed_evals p) instance_evals advice_evals (p_challenges p)
                                l_0 l_last l_blind (p_theta p) (p_beta p) (p_gamma p) (p_zero p) (p_one p))
                  lookups;
    Some (gs ++ ps ++ concat ls)%list.

  (** params.rs:157-192: queries of proof [i]. *)
  Definition proof_queries (p : params) (i : nat) : option (list query) :=
    do instance_commitments <- nth_error (p_instance_commitments p) i;
    do instance_evals <- nth_error (p_instance_evals p) i;
    do advice_commitments <- nth_error (p_advice_commitments p) i;
    do advice_evals <- nth_error (p_advice_evals p) i;
    do permutation <- nth_error (p_permutation p) i;
    do lookups <- nth_error (p_lookup p) i;
    do q1 <- column_queries p "_instance_commitments" (p_instance_queries p) instance_commitments instance_evals;
    do q2 <- column_queries p "_advice_commitments" (p_advice_queries p) advice_commitments advice_evals;
    do q3 <- perm_queries permutation (p_x_next p) (p_x_last p);
    Some (q1 ++ q2 ++ q3 ++ flat_map (fun le => lookup_queries le (p_x p) (p_x_inv p) (p_x_next p)) lookups)%list.

  (** params.rs:74-224, [queries]. *)
  Definition queries (p : params) : option (list query) :=
    do ls <- get_lagrange_commits (p_l p) (p_n p) (p_x p) (p_xn p) (p_one p) (p_omega p);
    do l_0 <- nth_error ls 0;
    do l_last <- nth_error ls (p_l p);
    if Nat.eqb (p_l p) 0 then None (* slice [1..0] panics *)
    else
      let l_blind := sum_with_constant (firstn (p_l p - 1) (skipn 1 ls)) f0 in
      do expression <- mapM (proof_expressions p l_0 l_last l_blind) (seq 0 (length (p_advice_evals p)));
      do pq <- mapM (proof_queries p) (seq 0 (length (p_instance_commitments p)));
      do fq <- column_queries p "_fixed_commitments" (p_fixed_queries p) (p_fixed_commitments p) (p_fixed_evals p);
      let cq := perm_common_queries (p_key p) (p_permutation_commitments p) (p_permutation_evals p) (p_x p) in
      do vq <- vanish_queries (concat expression) (p_y p) (p_xn p) (p_random_commitment p) (p_random_eval p)
                              (p_vanish_commitments p) (p_one p) (p_key p) (p_x p);
      Some (concat pq ++ fq ++ cq ++ vq)%list.

  (** ** systems/halo2/multiopen.rs *)
  (** multiopen.rs:33-43: insert one query into the groups. *)
  Fixpoint group_insert (groups : list (Z * (F * list schema))) (q : query) : list (Z * (F * list schema)) :=
    match groups with
    | [] => [(q_rotation q, (q_point q, [q_s q]))]
    | (rotation, (point, schemas)) :: groups' =>
        if Z.eqb rotation (q_rotation q)
        then (rotation, (point, (schemas ++ [q_s q])%list)) :: groups'
        else (rotation, (point, schemas)) :: group_insert groups' q
    end.
  Definition group_queries (qs : list query) : list (Z * (F * list schema)) :=
    fold_left group_insert qs [].

  (** evaluation.rs:86-90, [EvaluationProof]. *)
  Record eval_proof := mkEP { ep_point : F; ep_s : schema; ep_w : M }.

  (** multiopen.rs:23-69, [get_point_schemas], given the queries. *)
  Definition get_point_schemas (v : F) (w : list M) (qs : list query) : option (list eval_proof) :=
    let points := group_queries qs in
    if Nat.eqb (length w) (length points) then
      mapM (fun gw => let '((_, (point, schemas)), w) := gw in
              do acc <- reduce (fun acc q => sch_add (sch_mul (SScalar v) acc) q) (rev schemas);
              Some (mkEP point acc w))
           (combine points w)
    else None.

  (** multiopen.rs:10-13, [MultiOpenProof]. *)
  Record multiopen := mkMO { w_x : schema; w_g : schema }.

  (** multiopen.rs:82-96: loop body. *)
  Definition batch_step (key : string) (u : F) (acc : option multiopen) (ip : nat * eval_proof) : option multiopen :=
    let '(i, p) := ip in
    let w := SCommitment (mkCQ (key ++ "_w" ++ fmt_nat i) (Some (ep_w p)) None) in
    Some (match acc with
          | None => mkMO w (sch_add (sch_mul (SScalar (ep_point p)) w) (ep_s p))
          | Some a =>
              mkMO (sch_add (sch_mul (SScalar u) (w_x a)) w)
                   (sch_add (sch_add (sch_mul (SScalar u) (w_g a)) (sch_mul (SScalar (ep_point p)) w)) (ep_s p))
          end).
  (** multiopen.rs:71-102, [batch_multi_open_proofs], given the queries;
      [None] on no proofs is the final [unwrap]. *)
  Definition batch_queries (key : string) (u v : F) (w : list M) (qs : list query) : option multiopen :=
    do proofs <- get_point_schemas v w qs;
    fold_left (batch_step key u) (rev (enumerate proofs)) None.
  Definition batch_multi_open_proofs (p : params) : option multiopen :=
    do qs <- queries p;
    batch_queries (p_key p) (p_u p) (p_v p) (p_w p) qs.

  (** ** systems/halo2/verify.rs *)
  (** verify.rs:625-640: commitment of one instance column; [None] is an
      out-of-range index into [g_lagrange]. *)
  Definition instance_commitment (g_lagrange : list M) (instance : list F) : option M :=
    do acc <- foldM (fun (acc : option M) (ii : nat * F) =>
                       do g <- nth_error g_lagrange (fst ii);
                       let ls := smul (snd ii) g in
                       Some (match acc with None => Some ls | Some a => Some (madd a ls) end))
                    (enumerate instance) None;
    Some (match acc with None => m0 | Some a => a end).

  (** verify.rs:574-649, [assign_instance_commitment]: the flat list of
      instance scalars and the commitments; the two [assert!]s are the guards. *)
  Definition assign_instance_commitment (num_instance_columns n blinding_factors : nat)
             (g_lagrange : list M) (instances : list (list (list F)))
    : option (list F * list (list M)) :=
    if forallb (fun i => Nat.eqb (length i) num_instance_columns) instances then
      if forallb (forallb (fun c => Nat.leb (blinding_factors + 1) n && Nat.leb (length c) (n - (blinding_factors + 1)))) instances then
        do cs <- mapM (mapM (instance_commitment g_lagrange)) instances;
        Some (concat (concat instances), cs)
      else None
    else None.

  (** verify.rs:690-745, [evaluate_multiopen_proof] without the pairing
      (whose result is only printed). *)
  Definition evaluate_multiopen_proof (generator : M) (proof : multiopen) : option (M * M) :=
    do (left_s, left_e, _) <- eval (w_x proof);
    do (right_s, right_e, _) <- eval (w_g proof);
    Some (match left_e with None => left_s | Some e => madd left_s (smul e generator) end,
          match right_e with None => right_s | Some e => msub right_s (smul e generator) end).

  (** verify.rs:926-938: fold of the proofs with the aggregation challenge. *)
  Definition aggregate (challenge : F) (proofs : list multiopen) : option multiopen :=
    reduce (fun acc proof =>
              mkMO (sch_add (sch_mul (w_x acc) (SScalar challenge)) (w_x proof))
                   (sch_add (sch_mul (w_g acc) (SScalar challenge)) (w_g proof))) proofs.
End Plonk.

Arguments chip_div {F} _ _. Arguments AVal {F} _. Arguments AAdd {F} _ _. Arguments ASub {F} _ _.
Arguments AMul {F} _ _. Arguments ADiv {F} _ _. Arguments ast_eval {F} _.
Arguments mul_add {F} _ _ _. Arguments mul_add_accumulate {F} _ _.
Arguments sum_with_coeff_and_constant {F} _ _. Arguments sum_with_constant {F} _ _.
Arguments pow_loop {F} _ _ _ _ _. Arguments pow_constant {F} _ _ _.
Arguments lagrange_ws {F} _ _ _. Arguments get_lagrange_commits {F} _ _ _ _ _ _.
Arguments EConst {F} _. Arguments ESelector {F}. Arguments EFixed {F} _. Arguments EAdvice {F} _.
Arguments EInstance {F} _. Arguments EChallenge {F} _. Arguments ENeg {F} _. Arguments ESum {F} _ _.
Arguments EProd {F} _ _. Arguments EScaled {F} _ _. Arguments chip_evaluate {F} _ _ _ _ _ _.
Arguments mkQ {F M} _ _ _. Arguments q_point {F M} _. Arguments q_rotation {F M} _. Arguments q_s {F M} _.
Arguments query_new {F M} _ _ _ _ _.
Arguments mkPS {F M} _ _ _ _. Arguments ps_commitment {F M} _. Arguments ps_eval {F M} _.
Arguments ps_next_eval {F M} _. Arguments ps_last_eval {F M} _.
Arguments mkPE {F M} _ _ _ _ _ _. Arguments pe_key {F M} _. Arguments pe_blinding_factors {F M} _.
Arguments pe_x {F M} _. Arguments pe_sets {F M} _. Arguments pe_evals {F M} _. Arguments pe_chunk_len {F M} _.
Arguments perm_common_queries {F M} _ _ _ _. Arguments perm_step {F} _ _ _ _ _.
Arguments perm_chunk {F M} _ _ _ _ _ _ _ _. Arguments perm_expressions {F M} _ _ _ _ _ _ _ _ _ _.
Arguments perm_queries {F M} _ _ _.
Arguments mkLE {F M} _ _ _ _ _ _ _ _ _ _ _. Arguments le_key {F M} _. Arguments le_input {F M} _. Arguments le_table {F M} _.
Arguments le_permuted_input_commitment {F M} _. Arguments le_permuted_table_commitment {F M} _.
Arguments le_product_commitment {F M} _. Arguments le_product_eval {F M} _. Arguments le_product_next_eval {F M} _.
Arguments le_permuted_input_eval {F M} _. Arguments le_permuted_input_inv_eval {F M} _. Arguments le_permuted_table_eval {F M} _.
Arguments lookup_expressions {F M} _ _ _ _ _ _ _ _ _ _ _ _ _. Arguments lookup_queries {F M} _ _ _ _.
Arguments vanish_queries {F M} _ _ _ _ _ _ _ _ _.
Arguments p_key {F M} _. Arguments p_gates {F M} _. Arguments p_l {F M} _. Arguments p_lookup {F M} _.
Arguments p_permutation {F M} _. Arguments p_instance_commitments {F M} _. Arguments p_instance_evals {F M} _.
Arguments p_instance_queries {F M} _. Arguments p_challenges {F M} _. Arguments p_advice_commitments {F M} _.
Arguments p_advice_evals {F M} _. Arguments p_advice_queries {F M} _. Arguments p_fixed_commitments {F M} _.
Arguments p_fixed_evals {F M} _. Arguments p_fixed_queries {F M} _. Arguments p_permutation_commitments {F M} _.
Arguments p_permutation_evals {F M} _. Arguments p_vanish_commitments {F M} _. Arguments p_random_commitment {F M} _.
Arguments p_w {F M} _. Arguments p_random_eval {F M} _. Arguments p_beta {F M} _. Arguments p_gamma {F M} _.
Arguments p_theta {F M} _. Arguments p_delta {F M} _. Arguments p_x {F M} _. Arguments p_x_next {F M} _.
Arguments p_x_last {F M} _. Arguments p_x_inv {F M} _. Arguments p_xn {F M} _. Arguments p_y {F M} _.
Arguments p_u {F M} _. Arguments p_v {F M} _. Arguments p_omega {F M} _. Arguments p_zero {F M} _.
Arguments p_one {F M} _. Arguments p_n {F M} _. Arguments mkParams {F M}.
Arguments rotate_omega {F} _ _ _. Arguments column_queries {F M} _ _ _ _ _.
Arguments proof_expressions {F M} _ _ _ _ _. Arguments proof_queries {F M} _ _. Arguments queries {F M} _.
Arguments group_insert {F M} _ _. Arguments group_queries {F M} _.
Arguments mkEP {F M} _ _ _. Arguments ep_point {F M} _. Arguments ep_s {F M} _. Arguments ep_w {F M} _.
Arguments get_point_schemas {F M} _ _ _. Arguments mkMO {F M} _ _. Arguments w_x {F M} _. Arguments w_g {F M} _.
Arguments batch_step {F M} _ _ _ _. Arguments batch_queries {F M} _ _ _ _ _.
Arguments batch_multi_open_proofs {F M} _. Arguments instance_commitment {F M} _ _.
Arguments assign_instance_commitment {F M} _ _ _ _ _. Arguments evaluate_multiopen_proof {F M} _ _.
Arguments aggregate {F M} _ _.
