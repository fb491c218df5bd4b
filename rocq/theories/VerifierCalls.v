(** The calls made by the verifier of halo2-snark-aggregator-api.

    Same functions as Schema.v, Plonk.v and BuildParams.v, but with the assigned values
    replaced by positions in the list of results (Calls.v), so that each function yields the
    list of chip and transcript calls in the order of the Rust code.  The calls are related
    to those files in VerifierCallsProofs.v.

    Two things are fixed when the list is generated although the Rust code finds them out
    while running: the number of opening points of each proof ([while let Ok(p) =
    self.load_point()], verify.rs:474-476; parameter [nw]) and the lengths of the instance
    columns ([shape]). *)
From Coq Require Import String ZArith NArith Arith Bool List.
From Verif Require Import Util Algebra Schema Plonk BuildParams Calls.
Import ListNotations.

(** ** Values *)
(** evaluation.rs:8-27, [CommitQuery], [EvaluationQuerySchema]. *)
Record hcq := mkHQ { hq_key : string; hq_commitment : option nat; hq_eval : option nat }.
Inductive hschema :=
| HSCommitment (q : hcq) | HSEval (q : hcq) | HSScalar (s : nat)
| HSAdd (l : hschema) (lc : bool) (r : hschema) (rc : bool)
| HSMul (l : hschema) (lc : bool) (r : hschema) (rc : bool).
(** evaluation.rs:30-38 *)
Definition h_has_commitment (t : hschema) : bool :=
  match t with
  | HSCommitment _ => true | HSEval _ => false | HSScalar _ => false
  | HSAdd _ lc _ rc => lc || rc | HSMul _ lc _ rc => lc || rc
  end.
(** evaluation.rs:62-84 *)
Definition hs_add (a b : hschema) : hschema := HSAdd a (h_has_commitment a) b (h_has_commitment b).
Definition hs_mul (a b : hschema) : hschema := HSMul a (h_has_commitment a) b (h_has_commitment b).
(** evaluation.rs:214 *)
Definition hentry := (string * option nat * option nat)%type.
Definition he_key (e : hentry) : string := fst (fst e).
Definition he_pt (e : hentry) : option nat := snd (fst e).
Definition he_sc (e : hentry) : option nat := snd e.

(** ast.rs:4-10 *)
Inductive hast := HVal (i : nat) | HAdd (a b : hast) | HSub (a b : hast) | HMul (a b : hast) | HDiv (a b : hast).
(** halo2 [Expression<AssignedScalar>] *)
Inductive hexpr :=
| HEConst (c : nat) | HESelector | HEFixed (i : nat) | HEAdvice (i : nat) | HEInstance (i : nat)
| HEChallenge (i : nat) | HENeg (a : hexpr) | HESum (a b : hexpr) | HEProd (a b : hexpr)
| HEScaled (a : hexpr) (f : nat).
(** evaluation.rs:92-98 *)
Record hquery := mkHQu { hqu_point : nat; hqu_rotation : Z; hqu_s : hschema }.
(** permutation.rs:9-31 *)
Record hset := mkHSet { hs_commitment : nat; hs_eval : nat; hs_next_eval : nat; hs_last_eval : option nat }.
Record hperm := mkHPerm {
  hpe_key : string; hpe_blinding_factors : nat; hpe_x : nat; hpe_sets : list hset; hpe_evals : list nat; hpe_chunk_len : nat
}.
(** lookup.rs:14-31 *)
Record hlookup := mkHLook {
  hle_key : string; hle_input : list hexpr; hle_table : list hexpr;
  hle_permuted_input_commitment : nat; hle_permuted_table_commitment : nat; hle_product_commitment : nat;
  hle_product_eval : nat; hle_product_next_eval : nat; hle_permuted_input_eval : nat;
  hle_permuted_input_inv_eval : nat; hle_permuted_table_eval : nat
}.
(** evaluation.rs:86-90, multiopen.rs:10-13 *)
Record heval_proof := mkHEP { hep_point : nat; hep_s : hschema; hep_w : nat }.
Record hmultiopen := mkHMO { hw_x : hschema; hw_g : hschema }.

Section Gen.
  Variable F : Fld.
  Variable M : Mod F.
  Notation Q := (Q F M).
  Local Notation "x <~ m ;; k" := (qbind m (fun x => k)) (at level 100, m at next level, right associativity).
  Local Notation "' p <~ m ;; k" := (qbind m (fun p => k)) (at level 100, p pattern, m at next level, right associativity).

  (** ** arith/ast.rs:13-37 *)
  Fixpoint c_ast (t : hast) : Q nat :=
    match t with
    | HVal i => qret i
    | HAdd a b => x <~ c_ast a ;; y <~ c_ast b ;; emit (CAdd x y)
    | HSub a b => x <~ c_ast a ;; y <~ c_ast b ;; emit (CSub x y)
    | HMul a b => x <~ c_ast a ;; y <~ c_ast b ;; emit (CMul x y)
    | HDiv a b => x <~ c_ast a ;; y <~ c_ast b ;; emit (CDiv x y)
    end.

  (** ** arith/field.rs *)
  (** field.rs:57-81, [mul_add], [mul_add_accumulate] *)
  Definition c_mul_add (a b c : nat) : Q nat := t <~ emit (CMul a b) ;; emit (CAdd t c).
  Definition c_mul_add_accumulate (a : list nat) (b : nat) : Q nat :=
    z <~ emit (CConst f0) ;; qfold (fun acc v => c_mul_add acc b v) a z.
  (** field.rs:37-48 *)
  Definition c_sum_with_constant (a : list nat) (b : F) : Q nat := emit (CSum (map (fun x => (x, f1)) a) b).
  (** field.rs:83-104, [pow_constant]; loops as in Plonk.v *)
  Fixpoint c_pow_loop (fuel : nat) (base : nat) (exponent second_bit : N) (acc : nat) : Q nat :=
    if N.eqb second_bit 0 then qret acc
    else match fuel with
         | O => qfail
         | S fuel =>
             acc <~ emit (CSquare acc) ;;
             acc <~ (if N.eqb (N.land exponent second_bit) 0 then qret acc else emit (CMul acc base)) ;;
             c_pow_loop fuel base exponent (N.div second_bit 2) acc
         end.
  Definition c_pow_constant (fuel : nat) (base : nat) (exponent : N) : Q nat :=
    if N.leb 1 exponent then
      sb <~ qlift (pow_top fuel exponent 1) ;;
      c_pow_loop fuel base exponent (N.div sb 4) base
    else qfail.

  (** ** systems/halo2/lagrange.rs:17-39 *)
  Fixpoint c_lagrange_ws (l : nat) (w omega : nat) : Q (list nat) :=
    match l with
    | O => qret [w]
    | S l => w' <~ emit (CDiv w omega) ;; r <~ c_lagrange_ws l w' omega ;; qret (w :: r)
    end.
  Definition c_get_lagrange_commits (l : nat) (n x xn one omega : nat) : Q (list nat) :=
    ws <~ c_lagrange_ws l one omega ;;
    qmap (fun wi => c_ast (HDiv (HMul (HDiv (HVal wi) (HVal n)) (HSub (HVal xn) (HVal one)))
                                (HSub (HVal x) (HVal wi)))) ws.

  (** ** systems/halo2/expression.rs:18-113 *)
  Fixpoint c_chip_evaluate (fixed advice instance challenge : list nat) (zero : nat) (e : hexpr) : Q nat :=
    match e with
    | HEConst c => qret c
    | HESelector => qfail
    | HEFixed i => qlift (nth_error fixed i)
    | HEAdvice i => qlift (nth_error advice i)
    | HEInstance i => qlift (nth_error instance i)
    | HEChallenge i => qlift (nth_error challenge i)
    | HENeg a =>
        a <~ c_chip_evaluate fixed advice instance challenge zero a ;;
        c_ast (HSub (HVal zero) (HVal a))
    | HESum a b =>
        a <~ c_chip_evaluate fixed advice instance challenge zero a ;;
        b <~ c_chip_evaluate fixed advice instance challenge zero b ;;
        c_ast (HAdd (HVal a) (HVal b))
    | HEProd a b =>
        a <~ c_chip_evaluate fixed advice instance challenge zero a ;;
        b <~ c_chip_evaluate fixed advice instance challenge zero b ;;
        c_ast (HMul (HVal a) (HVal b))
    | HEScaled a f =>
        a <~ c_chip_evaluate fixed advice instance challenge zero a ;;
        c_ast (HMul (HVal f) (HVal a))
    end.

  (** ** systems/halo2/evaluation.rs *)
  (** evaluation.rs:100-118, [EvaluationQuery::new] *)
  Definition h_query_new (rotation : Z) (key : string) (point commitment eval : nat) : hquery :=
    let s := mkHQ key (Some commitment) (Some eval) in
    mkHQu point rotation (hs_add (HSCommitment s) (HSEval s)).
  (** evaluation.rs:251-265; [one] is the assigned 1 *)
  Definition h_or (one : nat) (s : option nat) : nat := match s with Some v => v | None => one end.
  Fixpoint c_merge1 (one : nat) (res : list hentry) (ev : hentry) : Q (list hentry) :=
    match res with
    | [] => qret [ev]
    | p :: res' =>
        if String.eqb (he_key p) (he_key ev)
        then s <~ emit (CAdd (h_or one (he_sc p)) (h_or one (he_sc ev))) ;;
             qret ((he_key p, he_pt p, Some s) :: res')
        else r <~ c_merge1 one res' ev ;; qret (p :: r)
    end.
  Definition c_merge (one : nat) (res evs : list hentry) : Q (list hentry) := qfold (c_merge1 one) evs res.
  (** [match scalar { Some(s) => schip.mul(..), None => v }] *)
  Definition c_scale (f : nat -> call F M) (scalar : option nat) (v : nat) : Q nat :=
    match scalar with Some s => emit (f s) | None => qret v end.
  (** evaluation.rs:205-293, [eval_prepare] *)
  Fixpoint c_eval_prepare (one : nat) (t : hschema) (scalar : option nat) : Q (list hentry) :=
    match t with
    | HSCommitment cq =>
        match hq_commitment cq with Some c => qret [(hq_key cq, Some c, scalar)] | None => qfail end
    | HSEval cq =>
        match hq_eval cq with
        | Some e => v <~ c_scale (fun s => CMul s e) scalar e ;; qret [(""%string, None, Some v)]
        | None => qfail
        end
    | HSScalar s => v <~ c_scale (fun sc => CMul s sc) scalar s ;; qret [(""%string, None, Some v)]
    | HSAdd l lc r rc =>
        if negb lc && negb rc then
          le <~ c_eval_prepare one l None ;;
          re <~ c_eval_prepare one r None ;;
          match le, re with
          | [le], [re] =>
              match he_sc le, he_sc re with
              | Some a, Some b =>
                  sum <~ emit (CAdd a b) ;;
                  v <~ c_scale (fun sc => CMul sc sum) scalar sum ;;
                  qret [(""%string, None, Some v)]
              | _, _ => qfail
              end
          | _, _ => qfail
          end
        else
          el <~ c_eval_prepare one l scalar ;;
          res <~ c_merge one [] el ;;
          er <~ c_eval_prepare one r scalar ;;
          c_merge one res er
    | HSMul l lc r rc =>
        let go (m : Q (list hentry)) (rem : option nat -> Q (list hentry)) :=
          s <~ m ;;
          match s with
          | [se] =>
              match he_sc se with
              | Some v => v <~ c_scale (fun sc => CMul sc v) scalar v ;; rem (Some v)
              | None => qfail
              end
          | _ => qfail
          end in
        if negb lc then go (c_eval_prepare one l None) (c_eval_prepare one r)
        else go (c_eval_prepare one r None) (c_eval_prepare one l)
    end.
  (** evaluation.rs:171-203, [eval] *)
  Definition c_eval (one : nat) (t : hschema) : Q (nat * option nat) :=
    points <~ c_eval_prepare one t None ;;
    s <~ qlift (match find (fun b => String.eqb (he_key b) "") points with
                | None => Some None
                | Some b => match he_sc b with Some v => Some (Some v) | None => None end
                end) ;;
    let p_wo_scalar := flat_map (fun b => match he_sc b, he_pt b with None, Some p => [p] | _, _ => [] end) points in
    let pairs := flat_map (fun b => match he_pt b, he_sc b with Some p, Some v => [(p, v)] | _, _ => [] end) points in
    acc <~ emit (CMultiExp (map fst pairs) (map snd pairs)) ;;
    acc <~ qfold (fun acc p => emit (CPAdd acc p)) p_wo_scalar acc ;;
    qret (acc, s).

  (** ** systems/halo2/permutation.rs *)
  Local Open Scope string_scope.
  (** permutation.rs:33-51 *)
  Definition h_perm_common_queries (key : string) (commitments evals : list nat) (x : nat) : list hquery :=
    map (fun ice => let '(i, (c, e)) := ice in
                    h_query_new 0 (key ++ "_permutation_commitments" ++ fmt_nat i) x c e)
        (enumerate (combine commitments evals)).
  (** permutation.rs:121-130 *)
  Definition c_perm_step (beta gamma delta : nat) (st : nat * nat * nat) (ep : nat * nat) : Q (nat * nat * nat) :=
    let '(lft, rgt, d) := st in
    let '(eval, permutation_eval) := ep in
    t2 <~ c_ast (HAdd (HVal eval) (HVal gamma)) ;;
    lft' <~ c_ast (HMul (HAdd (HVal t2) (HMul (HVal beta) (HVal permutation_eval))) (HVal lft)) ;;
    rgt' <~ c_ast (HMul (HAdd (HVal t2) (HVal d)) (HVal rgt)) ;;
    d' <~ c_ast (HMul (HVal delta) (HVal d)) ;;
    qret (lft', rgt', d').
  (** permutation.rs:102-133 *)
  Definition c_perm_chunk (chunk_len : nat) (delta beta gamma one t0 t1 : nat)
             (c : nat * (hset * list nat * list nat)) : Q nat :=
    let '(chunk_index, (set, evals, permutation_evals)) := c in
    delta_pow <~ (if Nat.eqb chunk_index 0 then qret one
                  else c_pow_constant POW_FUEL delta (N.of_nat (chunk_index * chunk_len) mod 2 ^ 32)) ;;
    d <~ c_ast (HMul (HVal t0) (HVal delta_pow)) ;;
    '(l, r, _) <~ qfold (c_perm_step beta gamma delta) (combine evals permutation_evals)
                        (hs_next_eval set, hs_eval set, d) ;;
    c_ast (HMul (HSub (HVal l) (HVal r)) (HVal t1)).
  (** permutation.rs:54-136 *)
  Definition c_perm_expressions (pe : hperm) (permutation_evals : list nat)
             (l_0 l_last l_blind delta beta gamma x one : nat) : Q (list nat) :=
    r1 <~ (match hpe_sets pe with
           | [] => qret []
           | s :: _ => e <~ c_ast (HMul (HVal l_0) (HSub (HVal one) (HVal (hs_eval s)))) ;; qret [e]
           end) ;;
    r2 <~ (match rev (hpe_sets pe) with
           | [] => qret []
           | s :: _ => let z := hs_eval s in
               e <~ c_ast (HMul (HVal l_last) (HSub (HMul (HVal z) (HVal z)) (HVal z))) ;; qret [e]
           end) ;;
    r3 <~ qmap (fun sl => let '(set, last_set) := sl in
                  prev_last <~ qlift (hs_last_eval last_set) ;;
                  c_ast (HMul (HSub (HVal (hs_eval set)) (HVal prev_last)) (HVal l_0)))
               (combine (skipn 1 (hpe_sets pe)) (hpe_sets pe)) ;;
    t0 <~ c_ast (HMul (HVal beta) (HVal x)) ;;
    t1 <~ c_ast (HSub (HVal one) (HAdd (HVal l_last) (HVal l_blind))) ;;
    if Nat.eqb (hpe_chunk_len pe) 0 then qfail
    else
      r4 <~ qmap (c_perm_chunk (hpe_chunk_len pe) delta beta gamma one t0 t1)
                 (enumerate (combine (combine (hpe_sets pe) (chunks (hpe_chunk_len pe) (hpe_evals pe)))
                                     (chunks (hpe_chunk_len pe) permutation_evals))) ;;
      qret (r1 ++ r2 ++ r3 ++ r4)%list.
  (** permutation.rs:138-181 *)
  Definition h_perm_queries (pe : hperm) (x_next x_last : nat) : option (list hquery) :=
    let key i := hpe_key pe ++ "_permutation_product_commitment_" ++ fmt_nat i in
    do lasts <- mapM (fun is => let '(i, s) := is in
                        do e <- hs_last_eval s;
                        Some (h_query_new (- Z.of_nat (hpe_blinding_factors pe + 1)) (key i) x_last (hs_commitment s) e))
                     (skipn 1 (rev (enumerate (hpe_sets pe))));
    Some (flat_map (fun is => let '(i, s) := is in
                      [h_query_new 0 (key i) (hpe_x pe) (hs_commitment s) (hs_eval s);
                       h_query_new 1 (key i) x_next (hs_commitment s) (hs_next_eval s)])
                   (enumerate (hpe_sets pe)) ++ lasts)%list.

  (** ** systems/halo2/lookup.rs:34-119 *)
  Definition c_lookup_expressions (le : hlookup) (fixed instance advice challenges : list nat)
             (l_0 l_last l_blind theta beta gamma zero one : nat) : Q (list nat) :=
    let z_wx := HVal (hle_product_next_eval le) in
    let z_x := HVal (hle_product_eval le) in
    let a_x := HVal (hle_permuted_input_eval le) in
    let s_x := HVal (hle_permuted_table_eval le) in
    let a_invwx := HVal (hle_permuted_input_inv_eval le) in
    let product_eval := HVal (hle_product_eval le) in
    lft <~ c_ast (HMul (HMul z_wx (HAdd a_x (HVal beta))) (HAdd s_x (HVal gamma))) ;;
    input_evals <~ qmap (c_chip_evaluate fixed advice instance challenges zero) (hle_input le) ;;
    input_eval <~ c_mul_add_accumulate input_evals theta ;;
    table_evals <~ qmap (c_chip_evaluate fixed advice instance challenges zero) (hle_table le) ;;
    table_eval <~ c_mul_add_accumulate table_evals theta ;;
    t0 <~ c_ast (HSub (HVal one) (HAdd (HVal l_last) (HVal l_blind))) ;;
    t1 <~ c_ast (HSub a_x s_x) ;;
    e1 <~ c_ast (HMul (HVal l_0) (HSub (HVal one) z_x)) ;;
    e2 <~ c_ast (HMul (HVal l_last) (HSub (HMul z_x z_x) z_x)) ;;
    e3 <~ c_ast (HMul (HSub (HVal lft)
                         (HMul (HMul product_eval (HAdd (HVal input_eval) (HVal beta)))
                               (HAdd (HVal table_eval) (HVal gamma))))
                      (HVal t0)) ;;
    e4 <~ c_ast (HMul (HVal l_0) (HVal t1)) ;;
    e5 <~ c_ast (HMul (HMul (HVal t1) (HSub a_x a_invwx)) (HVal t0)) ;;
    qret [e1; e2; e3; e4; e5].
  (** lookup.rs:121-164 *)
  Definition h_lookup_queries (le : hlookup) (x x_inv x_next : nat) : list hquery :=
    [ h_query_new 0 (hle_key le ++ "_product_commitment") x (hle_product_commitment le) (hle_product_eval le);
      h_query_new 0 (hle_key le ++ "_permuted_input_commitment") x (hle_permuted_input_commitment le) (hle_permuted_input_eval le);
      h_query_new 0 (hle_key le ++ "_permuted_table_commitment") x (hle_permuted_table_commitment le) (hle_permuted_table_eval le);
      h_query_new (-1) (hle_key le ++ "_permuted_input_commitment") x_inv (hle_permuted_input_commitment le) (hle_permuted_input_inv_eval le);
      h_query_new 1 (hle_key le ++ "_product_commitment") x_next (hle_product_commitment le) (hle_product_next_eval le) ].

  (** ** systems/halo2/vanish.rs:18-72 *)
  Definition c_vanish_queries (expressions : list nat) (y xn random_commitment random_eval : nat)
             (expect_commitments : list nat) (one : nat) (key : string) (x : nat) : Q (list hquery) :=
    acc <~ c_mul_add_accumulate expressions y ;;
    expected_h_eval <~ c_ast (HDiv (HVal acc) (HSub (HVal xn) (HVal one))) ;;
    h_commitment <~ qlift
       (reduce (fun acc commitment => hs_add (hs_mul (HSScalar xn) acc) commitment)
               (map (fun ic => HSCommitment (mkHQ (key ++ "_h_commitment" ++ fmt_nat (fst ic)) (Some (snd ic)) None))
                    (enumerate (rev expect_commitments)))) ;;
    qret [ mkHQu x 0 (hs_add h_commitment (HSScalar expected_h_eval));
           h_query_new 0 (key ++ "_random_commitment") x random_commitment random_eval ].

  (** ** systems/halo2/params.rs *)
  (** params.rs:8-54; [hp_omega_value] is [schip.to_value(&self.omega)] (params.rs:64), the
      value of the constant [hp_omega]. *)
  Record hparams := mkHParams {
    hp_key : string;
    hp_gates : list (list hexpr);
    hp_l : nat;
    hp_lookup : list (list hlookup);
    hp_permutation : list hperm;
    hp_instance_commitments : list (list nat);
    hp_instance_evals : list (list nat);
    hp_instance_queries : list (nat * Z);
    hp_challenges : list nat;
    hp_advice_commitments : list (list nat);
    hp_advice_evals : list (list nat);
    hp_advice_queries : list (nat * Z);
    hp_fixed_commitments : list nat;
    hp_fixed_evals : list nat;
    hp_fixed_queries : list (nat * Z);
    hp_permutation_commitments : list nat;
    hp_permutation_evals : list nat;
    hp_vanish_commitments : list nat;
    hp_random_commitment : nat;
    hp_w : list nat;
    hp_random_eval : nat;
    hp_beta : nat; hp_gamma : nat; hp_theta : nat; hp_delta : nat;
    hp_x : nat; hp_x_next : nat; hp_x_last : nat; hp_x_inv : nat; hp_xn : nat;
    hp_y : nat; hp_u : nat; hp_v : nat; hp_omega : nat;
    hp_zero : nat; hp_one : nat; hp_n : nat;
    hp_omega_value : F
  }.
  (** params.rs:57-72, verify.rs:153-167 *)
  Definition c_rotate_omega (x : nat) (omega : F) (at_ : Z) : Q nat :=
    base <~ qlift (if Z.ltb at_ 0 then (if feq_dec omega f0 then None else Some (finv omega)) else Some omega) ;;
    emit (CSum [(x, fpow base (Z.to_nat (Z.abs at_)))] f0).
  (** params.rs:165-183, 194-202 *)
  Definition c_column_queries (p : hparams) (suffix : string) (qs : list (nat * Z)) (commitments evals : list nat) : Q (list hquery) :=
    qmap (fun iq => let '(query_index, (column, at_)) := iq in
            pt <~ c_rotate_omega (hp_x p) (hp_omega_value p) at_ ;;
            c <~ qlift (nth_error commitments column) ;;
            e <~ qlift (nth_error evals query_index) ;;
            qret (h_query_new at_ (hp_key p ++ suffix ++ fmt_nat column) pt c e))
         (enumerate qs).
  (** params.rs:98-154 *)
  Definition c_proof_expressions (p : hparams) (l_0 l_last l_blind : nat) (k : nat) : Q (list nat) :=
    advice_evals <~ qlift (nth_error (hp_advice_evals p) k) ;;
    instance_evals <~ qlift (nth_error (hp_instance_evals p) k) ;;
    permutation <~ qlift (nth_error (hp_permutation p) k) ;;
    lookups <~ qlift (nth_error (hp_lookup p) k) ;;
    gs <~ qmap (c_chip_evaluate (hp_fixed_evals p) advice_evals instance_evals (hp_challenges p) (hp_zero p))
               (concat (hp_gates p)) ;;
    ps <~ c_perm_expressions permutation (hp_permutation_evals p) l_0 l_last l_blind
                             (hp_delta p) (hp_beta p) (hp_gamma p) (hp_x p) (hp_one p) ;;
    ls <~ qmap (fun le => c_lookup_expressions le (hp_fixed_evals p) instance_evals advice_evals (hp_challenges p)
                             l_0 l_last l_blind (hp_theta p) (hp_beta p) (hp_gamma p) (hp_zero p) (hp_one p))
               lookups ;;
    qret (gs ++ ps ++ concat ls)%list.
  (** params.rs:157-192 *)
  Definition c_proof_queries (p : hparams) (i : nat) : Q (list hquery) :=
    instance_commitments <~ qlift (nth_error (hp_instance_commitments p) i) ;;
    instance_evals <~ qlift (nth_error (hp_instance_evals p) i) ;;
    advice_commitments <~ qlift (nth_error (hp_advice_commitments p) i) ;;
    advice_evals <~ qlift (nth_error (hp_advice_evals p) i) ;;
    permutation <~ qlift (nth_error (hp_permutation p) i) ;;
    lookups <~ qlift (nth_error (hp_lookup p) i) ;;
    q1 <~ c_column_queries p "_instance_commitments" (hp_instance_queries p) instance_commitments instance_evals ;;
    q2 <~ c_column_queries p "_advice_commitments" (hp_advice_queries p) advice_commitments advice_evals ;;
    q3 <~ qlift (h_perm_queries permutation (hp_x_next p) (hp_x_last p)) ;;
    qret (q1 ++ q2 ++ q3 ++ flat_map (fun le => h_lookup_queries le (hp_x p) (hp_x_inv p) (hp_x_next p)) lookups)%list.
  (** params.rs:74-224, [queries] *)
  Definition c_queries (p : hparams) : Q (list hquery) :=
    ls <~ c_get_lagrange_commits (hp_l p) (hp_n p) (hp_x p) (hp_xn p) (hp_one p) (hp_omega p) ;;
    l_0 <~ qlift (nth_error ls 0) ;;
    l_last <~ qlift (nth_error ls (hp_l p)) ;;
    if Nat.eqb (hp_l p) 0 then qfail
    else
      l_blind <~ c_sum_with_constant (firstn (hp_l p - 1) (skipn 1 ls)) f0 ;;
      expression <~ qmap (c_proof_expressions p l_0 l_last l_blind) (seq 0 (List.length (hp_advice_evals p))) ;;
      pq <~ qmap (c_proof_queries p) (seq 0 (List.length (hp_instance_commitments p))) ;;
      fq <~ c_column_queries p "_fixed_commitments" (hp_fixed_queries p) (hp_fixed_commitments p) (hp_fixed_evals p) ;;
      let cq := h_perm_common_queries (hp_key p) (hp_permutation_commitments p) (hp_permutation_evals p) (hp_x p) in
      vq <~ c_vanish_queries (concat expression) (hp_y p) (hp_xn p) (hp_random_commitment p) (hp_random_eval p)
                             (hp_vanish_commitments p) (hp_one p) (hp_key p) (hp_x p) ;;
      qret (concat pq ++ fq ++ cq ++ vq)%list.

  (** ** systems/halo2/multiopen.rs *)
  (** multiopen.rs:33-43 *)
  Fixpoint h_group_insert (groups : list (Z * (nat * list hschema))) (q : hquery) : list (Z * (nat * list hschema)) :=
    match groups with
    | [] => [(hqu_rotation q, (hqu_point q, [hqu_s q]))]
    | (rotation, (point, schemas)) :: groups' =>
        if Z.eqb rotation (hqu_rotation q)
        then (rotation, (point, (schemas ++ [hqu_s q])%list)) :: groups'
        else (rotation, (point, schemas)) :: h_group_insert groups' q
    end.
  Definition h_group_queries (qs : list hquery) : list (Z * (nat * list hschema)) := fold_left h_group_insert qs [].
  (** multiopen.rs:23-69 *)
  Definition h_get_point_schemas (v : nat) (w : list nat) (qs : list hquery) : option (list heval_proof) :=
    let points := h_group_queries qs in
    if Nat.eqb (List.length w) (List.length points) then
      mapM (fun gw => let '((_, (point, schemas)), w) := gw in
              do acc <- reduce (fun acc q => hs_add (hs_mul (HSScalar v) acc) q) (rev schemas);
              Some (mkHEP point acc w))
           (combine points w)
    else None.
  (** multiopen.rs:82-96 *)
  Definition h_batch_step (key : string) (u : nat) (acc : option hmultiopen) (ip : nat * heval_proof) : option hmultiopen :=
    let '(i, p) := ip in
    let w := HSCommitment (mkHQ (key ++ "_w" ++ fmt_nat i) (Some (hep_w p)) None) in
    Some (match acc with
          | None => mkHMO w (hs_add (hs_mul (HSScalar (hep_point p)) w) (hep_s p))
          | Some a =>
              mkHMO (hs_add (hs_mul (HSScalar u) (hw_x a)) w)
                    (hs_add (hs_add (hs_mul (HSScalar u) (hw_g a)) (hs_mul (HSScalar (hep_point p)) w)) (hep_s p))
          end).
  (** multiopen.rs:71-102 *)
  Definition h_batch_queries (key : string) (u v : nat) (w : list nat) (qs : list hquery) : option hmultiopen :=
    do proofs <- h_get_point_schemas v w qs;
    fold_left (h_batch_step key u) (rev (enumerate proofs)) None.
  Definition c_batch_multi_open_proofs (p : hparams) : Q hmultiopen :=
    qs <~ c_queries p ;;
    qlift (h_batch_queries (hp_key p) (hp_u p) (hp_v p) (hp_w p) qs).

  (** ** systems/halo2/verify.rs *)
  Section Builder.
  Variable t : nat.                              (* the transcript *)
  Variable vk : vkey F M.
  (** verify.rs:94-151 *)
  Definition c_load_n_points (n : nat) : Q (list nat) := qtimes n (emit (CReadPoint t)).
  Definition c_load_n_m_points (n m : nat) : Q (list (list nat)) := qtimes n (c_load_n_points m).
  Definition c_load_n_scalars (n : nat) : Q (list nat) := qtimes n (emit (CReadScalar t)).
  Definition c_load_n_m_scalars (n m : nat) : Q (list (list nat)) := qtimes n (c_load_n_scalars m).
  (** verify.rs:74-92 *)
  Definition c_squeeze_instance_commitment (instances : list (list nat)) : Q unit :=
    _ <~ qmap (qmap (fun p => emit_ (CCommonPoint t p))) instances ;; qret tt.
  (** verify.rs:169-196, [convert_expression] *)
  Fixpoint c_convert (e : expr F) : Q hexpr :=
    match e with
    | EConst c => i <~ emit (CConst c) ;; qret (HEConst i)
    | ESelector => qret HESelector
    | EFixed i => qret (HEFixed i)
    | EAdvice i => qret (HEAdvice i)
    | EInstance i => qret (HEInstance i)
    | EChallenge i => qret (HEChallenge i)
    | ENeg a => a <~ c_convert a ;; qret (HENeg a)
    | ESum a b => a <~ c_convert a ;; b <~ c_convert b ;; qret (HESum a b)
    | EProd a b => a <~ c_convert a ;; b <~ c_convert b ;; qret (HEProd a b)
    | EScaled a f => a <~ c_convert a ;; i <~ emit (CConst f) ;; qret (HEScaled a i)
    end.
  (** verify.rs:361-378 *)
  Fixpoint c_read_phase (current : nat) (phases : list nat) (cells : list (option nat)) : Q (list (option nat)) :=
    match phases, cells with
    | ph :: phases, c :: cells =>
        c <~ (if Nat.eqb current ph then p <~ emit (CReadPoint t) ;; qret (Some p) else qret c) ;;
        r <~ c_read_phase current phases cells ;; qret (c :: r)
    | _, _ => qret cells
    end.
  Fixpoint c_squeeze_phase (current : nat) (phases : list nat) (cells : list nat) : Q (list nat) :=
    match phases, cells with
    | ph :: phases, c :: cells =>
        c <~ (if Nat.eqb current ph then emit (CSqueeze t) else qret c) ;;
        r <~ c_squeeze_phase current phases cells ;; qret (c :: r)
    | _, _ => qret cells
    end.
  Fixpoint c_read_phases (phases : list nat) (advice : list (list (option nat))) (challenges : list nat)
    : Q (list (list (option nat)) * list nat) :=
    match phases with
    | [] => qret (advice, challenges)
    | current :: phases =>
        advice <~ qmap (c_read_phase current (vk_advice_phase vk)) advice ;;
        challenges <~ c_squeeze_phase current (vk_challenge_phase vk) challenges ;;
        c_read_phases phases advice challenges
    end.
  (** verify.rs:350-387 *)
  Definition c_read_advice (num_proofs : nat) : Q (list (list nat) * list nat) :=
    zero <~ emit (CConst f0) ;;
    ac <~ c_read_phases (vk_phases vk) (repeat (repeat None (vk_num_advice vk)) num_proofs)
                        (repeat zero (vk_num_challenges vk)) ;;
    advice <~ qlift (mapM (mapM (fun x => x)) (fst ac)) ;;
    qret (advice, snd ac).
  (** verify.rs:395-409 *)
  Definition c_read_lookups_permuted (num_proofs : nat) : Q (list (list (nat * nat))) :=
    qtimes num_proofs (qtimes (List.length (vk_lookups vk))
      (i <~ emit (CReadPoint t) ;; tb <~ emit (CReadPoint t) ;; qret (i, tb))).
  (** verify.rs:246-262 *)
  Definition h_column_eval (advice instance fixed : list nat) (c : col_kind * nat) : option nat :=
    match fst c with
    | CAdvice => do i <- query_index (vk_advice_queries vk) (snd c); nth_error advice i
    | CFixed => do i <- query_index (vk_fixed_queries vk) (snd c); nth_error fixed i
    | BuildParams.CInstance => do i <- query_index (vk_instance_queries vk) (snd c); nth_error instance i
    end.
  (** verify.rs:206-231 *)
  Fixpoint c_read_sets (commitments : list nat) : Q (list hset) :=
    match commitments with
    | [] => qret []
    | c :: commitments =>
        e <~ emit (CReadScalar t) ;; nx <~ emit (CReadScalar t) ;;
        la <~ (match commitments with [] => qret None | _ => x <~ emit (CReadScalar t) ;; qret (Some x) end) ;;
        r <~ c_read_sets commitments ;;
        qret (mkHSet c e nx la :: r)
    end.
  (** verify.rs:198-289 *)
  Definition c_build_permutation_evaluated (key : string) (x : nat) (committed : list (list nat))
             (advice_evals instance_evals : list (list nat)) (fixed_evals : list nat) : Q (list hperm) :=
    sets <~ qmap c_read_sets committed ;;
    evals <~ qlift (mapM (fun ai => mapM (h_column_eval (fst ai) (snd ai) fixed_evals) (vk_perm_columns vk))
                         (combine advice_evals instance_evals)) ;;
    qret (map (fun '(i, (s, e)) => mkHPerm (key ++ "_" ++ fmt_nat i) (vk_blinding vk) x s e (chunk_len F M vk))
              (enumerate (combine sets evals))).
  (** verify.rs:291-340 *)
  Definition c_read_lookup (key : string) (i : nat) (a : nat * (nat * nat * nat * (list (expr F) * list (expr F)))) : Q hlookup :=
    let '(j, ((pi, pt, pr), (ie, te))) := a in
    e <~ emit (CReadScalar t) ;; en <~ emit (CReadScalar t) ;; ei <~ emit (CReadScalar t) ;;
    einv <~ emit (CReadScalar t) ;; et <~ emit (CReadScalar t) ;;
    ie <~ qmap c_convert ie ;;
    te <~ qmap c_convert te ;;
    qret (mkHLook (key ++ "_" ++ fmt_nat i ++ "_" ++ fmt_nat j) ie te pi pt pr e en ei einv et).
  Definition c_build_lookup_evaluated (key : string) (permuted : list (list (nat * nat))) (committed : list (list nat))
    : Q (list (list hlookup)) :=
    qmap (fun '(i, (p, c)) => qmap (c_read_lookup key i) (enumerate (combine (combine p c) (vk_lookups vk))))
         (enumerate (combine permuted committed)).
  (** verify.rs:342-571, [build_params] with [nw] opening points *)
  Definition c_build_params (nw : nat) (key : string) (instances : list (list nat)) : Q hparams :=
    if Nat.leb (vk_degree vk) 2 then qfail else
    hash <~ emit (CConst (vk_hash vk)) ;;
    _ <~ emit_ (CCommonScalar t hash) ;;
    _ <~ c_squeeze_instance_commitment instances ;;
    let num_proofs := List.length instances in
    '(advice_commitments, challenges) <~ c_read_advice num_proofs ;;
    theta <~ emit (CSqueeze t) ;;
    lookups_permuted <~ c_read_lookups_permuted num_proofs ;;
    beta <~ emit (CSqueeze t) ;;
    gamma <~ emit (CSqueeze t) ;;
    permutations_committed <~ c_load_n_m_points num_proofs (List.length (chunks (chunk_len F M vk) (vk_perm_columns vk))) ;;
    lookups_committed <~ qmap (qmap (fun _ => emit (CReadPoint t))) lookups_permuted ;;
    random_commitment <~ emit (CReadPoint t) ;;
    y <~ emit (CSqueeze t) ;;
    h_commitments <~ c_load_n_points (vk_quotient_degree vk) ;;
    let l := (vk_blinding vk + 1)%nat in
    let n := (vk_n vk mod 2 ^ 32)%N in
    x <~ emit (CSqueeze t) ;;
    instance_evals <~ c_load_n_m_scalars num_proofs (List.length (vk_instance_queries vk)) ;;
    advice_evals <~ c_load_n_m_scalars num_proofs (List.length (vk_advice_queries vk)) ;;
    fixed_evals <~ c_load_n_scalars (List.length (vk_fixed_queries vk)) ;;
    random_eval <~ emit (CReadScalar t) ;;
    permutation_evals <~ c_load_n_scalars (List.length (vk_perm_commitments vk)) ;;
    permutation <~ c_build_permutation_evaluated key x permutations_committed advice_evals instance_evals fixed_evals ;;
    lookup <~ c_build_lookup_evaluated key lookups_permuted lookups_committed ;;
    fixed_commitments <~ qmap (fun P => emit (CPConst P)) (vk_fixed_commitments vk) ;;
    v <~ emit (CSqueeze t) ;;
    w <~ c_load_n_points nw ;;
    u <~ emit (CSqueeze t) ;;
    x_next <~ c_rotate_omega x (vk_omega vk) 1 ;;
    x_last <~ c_rotate_omega x (vk_omega vk) (- Z.of_nat l) ;;
    x_inv <~ c_rotate_omega x (vk_omega vk) (-1) ;;
    xn <~ c_pow_constant POW_FUEL x n ;;
    gates <~ qmap (qmap c_convert) (vk_gates vk) ;;
    permutation_commitments <~ qmap (fun P => emit (CPConst P)) (vk_perm_commitments vk) ;;
    delta <~ emit (CConst (vk_delta vk)) ;;
    omega <~ emit (CConst (vk_omega vk)) ;;
    zero <~ emit (CConst f0) ;;
    one <~ emit (CConst f1) ;;
    n_ <~ emit (CConst (of_N F n)) ;;
    qret {| hp_key := key; hp_gates := gates; hp_l := l; hp_lookup := lookup; hp_permutation := permutation;
            hp_instance_commitments := instances; hp_instance_evals := instance_evals;
            hp_instance_queries := vk_instance_queries vk; hp_challenges := challenges;
            hp_advice_commitments := advice_commitments; hp_advice_evals := advice_evals;
            hp_advice_queries := vk_advice_queries vk; hp_fixed_commitments := fixed_commitments;
            hp_fixed_evals := fixed_evals; hp_fixed_queries := vk_fixed_queries vk;
            hp_permutation_commitments := permutation_commitments; hp_permutation_evals := permutation_evals;
            hp_vanish_commitments := h_commitments; hp_random_commitment := random_commitment; hp_w := w;
            hp_random_eval := random_eval; hp_beta := beta; hp_gamma := gamma; hp_theta := theta;
            hp_delta := delta; hp_x := x; hp_x_next := x_next; hp_x_last := x_last; hp_x_inv := x_inv;
            hp_xn := xn; hp_y := y; hp_u := u; hp_v := v; hp_omega := omega;
            hp_zero := zero; hp_one := one; hp_n := n_; hp_omega_value := vk_omega vk |}.
  (** verify.rs:651-688, [verify_single_proof_no_eval] *)
  Definition c_verify_single_proof_no_eval (nw : nat) (key : string) (instances : list (list nat)) : Q (hmultiopen * list nat) :=
    p <~ c_build_params nw key instances ;;
    proof <~ c_batch_multi_open_proofs p ;;
    c <~ qlift (nth_error (hp_advice_commitments p) 0) ;;
    qret (proof, c).
  End Builder.

  (** verify.rs:622-643: commitment of one column *)
  Definition c_instance_commitment (g_lagrange : list M) (instance : list nat) : Q nat :=
    acc <~ qfold (fun (acc : option nat) (ii : nat * nat) =>
                    g <~ qlift (nth_error g_lagrange (fst ii)) ;;
                    ls <~ emit (CPMulConst (snd ii) g) ;;
                    match acc with None => qret (Some ls) | Some a => s <~ emit (CPAdd a ls) ;; qret (Some s) end)
                 (enumerate instance) None ;;
    match acc with None => emit (CPConst m0) | Some a => emit (CNormalize a) end.
  (** verify.rs:574-649; [shape]: the lengths of the columns of each proof *)
  Definition c_assign_instance_commitment (num_instance_columns n blinding_factors : nat)
             (g_lagrange : list M) (shape : list (list nat)) : Q (list nat * list (list nat)) :=
    if forallb (fun i => Nat.eqb (List.length i) num_instance_columns) shape then
      if forallb (forallb (fun c => Nat.leb (blinding_factors + 1) n && Nat.leb c (n - (blinding_factors + 1)))) shape then
        instances <~ qmap (qmap (fun len => qtimes len (emit CInstance))) shape ;;
        cs <~ qmap (qmap (c_instance_commitment g_lagrange)) instances ;;
        qret (concat (concat instances), cs)
      else qfail
    else qfail.
  (** verify.rs:690-745, without the pairing (whose result is only printed) *)
  Definition c_evaluate_multiopen_proof (proof : hmultiopen) : Q (nat * nat) :=
    one <~ emit (CConst f1) ;;
    '(left_s, left_e) <~ c_eval one (hw_x proof) ;;
    '(right_s, right_e) <~ c_eval one (hw_g proof) ;;
    g <~ emit CPOne ;;
    lft <~ (match left_e with
            | None => qret left_s
            | Some e => s <~ emit (CPMul e g) ;; emit (CPAdd left_s s)
            end) ;;
    rgt <~ (match right_e with
            | None => qret right_s
            | Some e => s <~ emit (CPMul e g) ;; emit (CPSub right_s s)
            end) ;;
    qret (lft, rgt).
  (** verify.rs:778-831, [verify_single_proof_in_chip] *)
  Definition c_verify_single_proof_in_chip (t : nat) (vk : vkey F M) (nw num_instance_columns : nat) (g_lagrange : list M)
             (shape : list (list nat)) : Q (nat * nat * list nat * list nat) :=
    ic <~ c_assign_instance_commitment num_instance_columns (N.to_nat (vk_n vk)) (vk_blinding vk) g_lagrange shape ;;
    pc <~ c_verify_single_proof_no_eval t vk nw "" (snd ic) ;;
    wp <~ c_evaluate_multiopen_proof (fst pc) ;;
    qret (fst wp, snd wp, fst ic, snd pc).
  (** verify.rs:926-938 *)
  Definition h_aggregate (challenge : nat) (proofs : list hmultiopen) : option hmultiopen :=
    reduce (fun acc proof =>
              mkHMO (hs_add (hs_mul (hw_x acc) (HSScalar challenge)) (hw_x proof))
                    (hs_add (hs_mul (hw_g acc) (HSScalar challenge)) (hw_g proof))) proofs.
  (** One proof of the aggregation: shape of its instances, its transcript, its key and
      the number of its opening points; and one circuit with its proofs (verify.rs:747-776). *)
  Record hproof := mkHProof { hpr_shape : list (list nat); hpr_tr : nat; hpr_key : string; hpr_nw : nat }.
  Record hcircuit := mkHCircuit { hc_vk : vkey F M; hc_columns : nat; hc_g_lagrange : list M; hc_proofs : list hproof }.
  (** verify.rs:868-906 *)
  Definition c_aggregate_proof (c : hcircuit) (p : hproof) : Q (list nat * hmultiopen * list nat) :=
    ic <~ c_assign_instance_commitment (hc_columns c) (N.to_nat (vk_n (hc_vk c))) (vk_blinding (hc_vk c)) (hc_g_lagrange c) (hpr_shape p) ;;
    pc <~ c_verify_single_proof_no_eval (hpr_tr p) (hc_vk c) (hpr_nw p) (hpr_key p) (snd ic) ;;
    qret (fst ic, fst pc, snd pc).
  (** verify.rs:864-916 *)
  Definition c_aggregate_circuit (main : nat) (c : hcircuit) : Q (list (list nat * hmultiopen * list nat)) :=
    rs <~ qmap (c_aggregate_proof c) (hc_proofs c) ;;
    _ <~ qmap (fun p => s <~ emit (CSqueeze (hpr_tr p)) ;; emit_ (CCommonScalar main s)) (hc_proofs c) ;;
    qret rs.
  (** verify.rs:833-942, [verify_aggregation_proofs_in_chip]; [main] is the transcript of
      the aggregation.  The generator is that of the chip, not of [circuits[0]]. *)
  Definition c_verify_aggregation_proofs_in_chip (main : nat) (cs : list hcircuit)
    : Q (nat * nat * list nat * list (list nat)) :=
    rs <~ qmap (c_aggregate_circuit main) cs ;;
    let rs := concat rs in
    challenge <~ emit (CSqueeze main) ;;
    agg <~ qlift (h_aggregate challenge (map (fun r => snd (fst r)) rs)) ;;
    _ <~ qlift (nth_error cs 0) ;;
    wp <~ c_evaluate_multiopen_proof agg ;;
    qret (fst wp, snd wp, concat (map (fun r => fst (fst r)) rs), map snd rs).
End Gen.
