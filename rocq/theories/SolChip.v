(** Model of the chips of halo2-snark-aggregator-solidity (src/chips, src/transcript/codegen.rs)
    and of the context they emit statements into (src/code_generator/ctx.rs:568-709).
    The verification code is generic over the chips; a run of it is a list of calls
    whose arguments are results of earlier calls.  Offsets ([usize]) are natural numbers. *)
From Coq Require Import ZArith NArith List Bool.
From Verif Require Import Util Algebra PField Curve Bytes Evm SolIr Poseidon ChipRun.
From Verif Require ShaTranscript.
Import ListNotations.

(** ctx.rs:572-585.  The bytes [var_buf], which nothing reads, are left out; the hash
    map is an association list. *)
Record gctx := mkG {
  g_abs : N;               (** [absorbing_offset] *)
  g_maxabs : N;            (** [max_absorbing_offset] *)
  g_mem : N;               (** [memory_offset] *)
  g_tr : N;                (** [transcript_offset] *)
  g_inst : N;              (** [instance_offset] *)
  g_tmp : N;               (** [tmp_offset] *)
  g_stmts : list stmt;
  g_cache : list (expr * expr);
  g_mock : bool;           (** [mock_hash] *)
  g_in_tr : bool;          (** [transcript_context] *)
  g_in_inst : bool         (** [instance_context] *)
}.
(** ctx.rs:635-654 *)
Definition new_ctx : gctx := mkG 0 0 0 0 0 0 [] [] false false false.
(** A computation of the generator; [None] is a panic or an error. *)
Definition G (A : Type) : Type := gctx -> option (A * gctx).
Definition gret {A} (a : A) : G A := fun g => Some (a, g).
Definition gbind {A B} (m : G A) (k : A -> G B) : G B := fun g => match m g with Some (a, g) => k a g | None => None end.
Definition gpanic {A} : G A := fun _ => None.
Notation "x <-g m ;; k" := (gbind m (fun x => k)) (at level 100, m at next level, right associativity).

(** ctx.rs:588-606 *)
Definition enter_hash : G unit := fun g =>
  Some (tt, mkG (g_abs g) (g_maxabs g) (g_mem g) (g_tr g) (g_inst g) (g_tmp g) (g_stmts g) (g_cache g) true (g_in_tr g) (g_in_inst g)).
Definition set_transcript (v : bool) : G unit := fun g =>
  Some (tt, mkG (g_abs g) (g_maxabs g) (g_mem g) (g_tr g) (g_inst g) (g_tmp g) (g_stmts g) (g_cache g) (g_mock g) v (g_in_inst g)).
Definition set_instance (v : bool) : G unit := fun g =>
  Some (tt, mkG (g_abs g) (g_maxabs g) (g_mem g) (g_tr g) (g_inst g) (g_tmp g) (g_stmts g) (g_cache g) (g_mock g) (g_in_tr g) v).
(** [self.statements.push] *)
Definition push (s : stmt) : G unit := fun g =>
  Some (tt, mkG (g_abs g) (g_maxabs g) (g_mem g) (g_tr g) (g_inst g) (g_tmp g) (g_stmts g ++ [s]) (g_cache g) (g_mock g) (g_in_tr g) (g_in_inst g)).
(** ctx.rs:656-661 *)
Definition allocate (t : ty) : G expr := fun g =>
  Some (EMemory (g_mem g) t,
        mkG (g_abs g) (g_maxabs g) (g_mem g + to_length t) (g_tr g) (g_inst g) (g_tmp g) (g_stmts g) (g_cache g) (g_mock g) (g_in_tr g) (g_in_inst g)).
(** [cache_assign.get], [cache_assign.insert] *)
Fixpoint cache_get (v : expr) (c : list (expr * expr)) : option expr :=
  match c with [] => None | (k, e) :: c => if expr_eqb v k then Some e else cache_get v c end.
Definition cache_insert (v e : expr) : G unit := fun g =>
  Some (tt, mkG (g_abs g) (g_maxabs g) (g_mem g) (g_tr g) (g_inst g) (g_tmp g) (g_stmts g) ((v, e) :: g_cache g) (g_mock g) (g_in_tr g) (g_in_inst g)).
(** ctx.rs:663-676; the sample values, which feed comments only, are left out. *)
Definition assign_memory (v : expr) : G expr := fun g =>
  match cache_get v (g_cache g) with
  | Some e => Some (e, g)
  | None =>
      (m <-g allocate (get_type v) ;;
       if g_mock g then gret m
       else (_ <-g cache_insert v m ;; _ <-g push (Assign m v) ;; gret m)) g
  end.
(** ctx.rs:678-694 *)
Definition new_transcript_var (t : ty) (delta : N) : G expr := fun g =>
  Some (ETranscript (g_tr g) t,
        mkG (g_abs g) (g_maxabs g) (g_mem g) (g_tr g + delta) (g_inst g) (g_tmp g) (g_stmts g) (g_cache g) (g_mock g) (g_in_tr g) (g_in_inst g)).
Definition new_instance_var (t : ty) (delta : N) : G expr := fun g =>
  Some (EInstance (g_inst g) t,
        mkG (g_abs g) (g_maxabs g) (g_mem g) (g_tr g) (g_inst g + delta) (g_tmp g) (g_stmts g) (g_cache g) (g_mock g) (g_in_tr g) (g_in_inst g)).
Definition new_tmp_var (t : ty) (delta : N) : G expr := fun g =>
  Some (ETmpBuf (g_tmp g) t,
        mkG (g_abs g) (g_maxabs g) (g_mem g) (g_tr g) (g_inst g) (g_tmp g + delta) (g_stmts g) (g_cache g) (g_mock g) (g_in_tr g) (g_in_inst g)).
(** ctx.rs:608-620 *)
Definition ctx_squeeze (offset : N) : G expr := fun g =>
  (l <-g allocate TScalar ;; _ <-g push (Assign l (EHash offset)) ;; gret l)
    (mkG (g_abs g) (g_maxabs g) (g_mem g) (g_tr g) (g_inst g) (g_tmp g) (g_stmts g) (g_cache g) false (g_in_tr g) (g_in_inst g)).
(** [absorbing_offset], [max_absorbing_offset] *)
Definition set_abs_offset (a m : N) : G unit := fun g =>
  Some (tt, mkG a m (g_mem g) (g_tr g) (g_inst g) (g_tmp g) (g_stmts g) (g_cache g) (g_mock g) (g_in_tr g) (g_in_inst g)).

Section Chips.
  (** scalar field, coordinate field, constant of the curve equation *)
  Variables S W : PF.
  Variable b : W.
  (** external (halo2curves): whether the identity has the coordinates (0, 0) or none *)
  Variable ident_ok : bool.

  (** * chips/scalar_chip.rs *)
  (** scalar_chip.rs:10-15 *)
  Record sval := mkS { s_expr : expr; s_v : S; s_const : bool }.
  (** scalar_chip.rs:101-113 *)
  Definition assign_const (c : S) : G sval := gret (mkS (EScalar (toZ c)) c true).
  Definition is_val (x y : S) : bool := if feq_dec x y then true else false.
  Definition emit (r : expr) (v : S) (c : bool) : G sval := l <-g assign_memory r ;; gret (mkS l v c).
  (** scalar_chip.rs:37-65 *)
  Definition s_add (a b : sval) : G sval :=
    let v := fadd (s_v a) (s_v b) in
    if s_const a && s_const b then assign_const v
    else if s_const a && is_val (s_v a) f0 then gret b
    else if s_const b && is_val (s_v b) f0 then gret a
    else emit (EAdd (s_expr a) (s_expr b) TScalar) v (s_const a && s_const b).
  (** scalar_chip.rs:67-91 *)
  Definition s_sub (a b : sval) : G sval :=
    let v := fsub (s_v a) (s_v b) in
    if s_const a && s_const b then assign_const v
    else if s_const b && is_val (s_v b) f0 then gret a
    else emit (ESub (s_expr a) (s_expr b) TScalar) v (s_const a && s_const b).
  (** scalar_chip.rs:115-134 *)
  Definition s_assign_var (v : S) : G sval := fun g =>
    (l <-g (if g_in_tr g then new_transcript_var TScalar 1
            else if g_in_inst g then new_instance_var TScalar 1
            else new_tmp_var TScalar 1) ;;
     gret (mkS l v false)) g.
  (** scalar_chip.rs:153-181 *)
  Definition s_mul (a b : sval) : G sval :=
    let v := fmul (s_v a) (s_v b) in
    if s_const a && s_const b then assign_const v
    else if s_const a && is_val (s_v a) f1 then gret b
    else if s_const b && is_val (s_v b) f1 then gret a
    else emit (EMul (s_expr a) (s_expr b) TScalar) v (s_const a && s_const b).
  (** scalar_chip.rs:183-207; inverting zero panics *)
  Definition s_div (a b : sval) : G sval :=
    if is_val (s_v b) f0 then gpanic else
    let v := fmul (s_v a) (finv (s_v b)) in
    if s_const a && s_const b then assign_const v
    else if s_const b && is_val (s_v b) f1 then gret a
    else emit (EDiv (s_expr a) (s_expr b) TScalar) v (s_const a && s_const b).
  (** scalar_chip.rs:209-227 *)
  Definition s_square (a : sval) : G sval :=
    let v := fmul (s_v a) (s_v a) in
    if s_const a then assign_const v
    else emit (EMul (s_expr a) (s_expr a) TScalar) v (s_const a).
  (** scalar_chip.rs:229-242 *)
  Fixpoint s_sum_loop (l : list (sval * S)) (acc : sval) : G sval :=
    match l with
    | [] => gret acc
    | (x, coeff) :: l =>
        coeff <-g assign_const coeff ;;
        m <-g s_mul x coeff ;;
        acc <-g s_add acc m ;;
        s_sum_loop l acc
    end.
  Definition s_sum (l : list (sval * S)) (b : S) : G sval := acc <-g assign_const b ;; s_sum_loop l acc.
  (** scalar_chip.rs:244-261; only the sponge calls it *)
  Definition s_mul_add_constant (a b : sval) (c : S) : G sval :=
    gret (mkS (EMulAdd (s_expr a) (s_expr b) (EScalar (toZ c)) TScalar) (fadd (fmul (s_v a) (s_v b)) c) false).

  (** the sponge over this chip *)
  Definition gen_chip : fchip S := {|
    cM := G; cV := sval;
    cret := @gret; cbind := @gbind; cfail := @gpanic;
    c_const := assign_const; c_mul := s_mul; c_mul_add_constant := s_mul_add_constant; c_sum := s_sum
  |}.

  (** * chips/ecc_chip.rs *)
  (** ecc_chip.rs:21-26 *)
  Record pval := mkPV { p_expr : expr; p_v : point W; p_const : bool }.
  (** ecc_chip.rs:13-19 and 112-124 *)
  Definition p_assign_const (P : point W) : G pval :=
    let '(x, y) := encode P in gret (mkPV (EPoint x y) P true).
  (** [assign_memory] with the coordinates of the value as samples: [unwrap] panics
      if there are none. *)
  Definition p_emit (r : expr) (v : point W) (c : bool) : G pval :=
    match ShaTranscript.coordinates ident_ok v with
    | Some _ => l <-g assign_memory r ;; gret (mkPV l v c)
    | None => gpanic
    end.
  (** ecc_chip.rs:48-74 *)
  Definition p_add (P Q : pval) : G pval :=
    let v := padd (p_v P) (p_v Q) in
    if p_const P && p_const Q then p_assign_const v
    else p_emit (EAdd (p_expr P) (p_expr Q) TPoint) v (p_const P && p_const Q).
  (** ecc_chip.rs:76-102 *)
  Definition p_sub (P Q : pval) : G pval :=
    let v := padd (p_v P) (pneg (p_v Q)) in
    if p_const P && p_const Q then p_assign_const v
    else p_emit (ESub (p_expr P) (p_expr Q) TPoint) v (p_const P && p_const Q).
  (** ecc_chip.rs:126-153 *)
  Definition p_assign_var (v : point W) : G pval := fun g =>
    (l <-g (if g_in_tr g then new_transcript_var TPoint 2
            else if g_in_inst g then new_instance_var TPoint 2
            else new_tmp_var TPoint 2) ;;
     gret (mkPV l v false)) g.
  (** ecc_chip.rs:179-205 *)
  Definition p_mul (lhs : sval) (rhs : pval) : G pval :=
    let v := smul (Z.to_N (toZ (s_v lhs))) (p_v rhs) in
    if s_const lhs && p_const rhs then p_assign_const v
    else p_emit (EMul (s_expr lhs) (p_expr rhs) TPoint) v (s_const lhs && p_const rhs).
  (** ecc_chip.rs:207-235 *)
  Definition p_mul_constant (lhs : sval) (rhs : point W) : G pval :=
    let v := smul (Z.to_N (toZ (s_v lhs))) rhs in
    if s_const lhs then p_assign_const v
    else let '(x, y) := encode rhs in p_emit (EMul (s_expr lhs) (EPoint x y) TPoint) v (s_const lhs).

  (** * chips/encode_chip.rs, transcript/codegen.rs *)
  (** external: the digest of the reader inside the generator (sha3::Keccak256,
      codegen.rs:34) and the numbers of the sponge *)
  Variable H : list Z -> list Z.
  Variable sp : pspec S.
  Variables T RATE : nat.
  Variable init : list S.

  (** codegen.rs:32-36; the reader: bytes hashed so far and bytes not yet read *)
  Record tr := mkTr { tr_hash : pstate S gen_chip; tr_st : list Z; tr_rest : list Z }.
  (** codegen.rs:54-66 *)
  Definition tr_new (proof : list Z) : G tr :=
    h <-g (poseidon_new S gen_chip init : G (pstate S gen_chip)) ;; gret (mkTr h [] proof).
  (** encode_chip.rs:15-43; the remainder modulo the order of the same field changes
      nothing *)
  Definition encode_point (P : pval) : G (list sval) :=
    let '(x, y) := match ShaTranscript.coordinates ident_ok (p_v P) with Some xy => xy | None => (f0, f0) end in
    px <-g s_assign_var (ofZ (toZ x)) ;;
    py <-g s_assign_var (ofZ (toZ y)) ;;
    gret [px; py].
  (** codegen.rs:68-82 *)
  Definition _common_point (t : tr) (P : pval) : G tr :=
    encoded <-g encode_point P ;;
    _ <-g (fun g => (_ <-g push (UpdateHash (p_expr P) (g_abs g)) ;; set_abs_offset (g_abs g + 3) (g_maxabs g)) g) ;;
    gret (mkTr (Poseidon.update S gen_chip (tr_hash t) encoded) (tr_st t) (tr_rest t)).
  (** codegen.rs:84-96; encode_chip.rs:45-52 *)
  Definition _common_scalar (t : tr) (s : sval) : G tr :=
    _ <-g (fun g => (_ <-g push (UpdateHash (s_expr s) (g_abs g)) ;; set_abs_offset (g_abs g + 2) (g_maxabs g)) g) ;;
    gret (mkTr (Poseidon.update S gen_chip (tr_hash t) [s]) (tr_st t) (tr_rest t)).
  (** codegen.rs:135-149 *)
  Definition read_point (t : tr) : G (pval * tr) :=
    match ShaTranscript.read_point b ident_ok (tr_st t) (tr_rest t) with
    | None => gpanic
    | Some (point, st, rest) =>
        _ <-g set_transcript true ;;
        assigned_point <-g p_assign_var point ;;
        _ <-g set_transcript false ;;
        t <-g _common_point (mkTr (tr_hash t) st rest) assigned_point ;;
        gret (assigned_point, t)
    end.
  (** codegen.rs:166-180 *)
  Definition read_scalar (t : tr) : G (sval * tr) :=
    match @ShaTranscript.read_scalar S (tr_st t) (tr_rest t) with
    | None => gpanic
    | Some (scalar, st, rest) =>
        _ <-g set_transcript true ;;
        assigned_scalar <-g s_assign_var scalar ;;
        _ <-g set_transcript false ;;
        t <-g _common_scalar (mkTr (tr_hash t) st rest) assigned_scalar ;;
        gret (assigned_scalar, t)
    end.
  (** codegen.rs:196-214 *)
  Definition squeeze_challenge_scalar (t : tr) : G (sval * tr) :=
    let '(scalar, st) := @ShaTranscript.squeeze_challenge S H (tr_st t) in
    _ <-g enter_hash ;;
    r <-g (Poseidon.squeeze S gen_chip sp T RATE (tr_hash t) : G (sval * pstate S gen_chip)) ;;
    let '(v, h) := r in
    (fun g =>
      (e <-g ctx_squeeze (g_abs g) ;;
       _ <-g set_abs_offset 1 (if (g_maxabs g <? g_abs g)%N then g_abs g else g_maxabs g) ;;
       gret (mkS e scalar (s_const v), mkTr h st (tr_rest t))) g).
  (** codegen.rs:216-227 *)
  Definition common_point (t : tr) (P : pval) : G tr :=
    t <-g _common_point t P ;;
    match ShaTranscript.common_point ident_ok (tr_st t) (p_v P) with
    | Some st => gret (mkTr (tr_hash t) st (tr_rest t))
    | None => gpanic
    end.
  (** codegen.rs:229-239 *)
  Definition common_scalar (t : tr) (s : sval) : G tr :=
    t <-g _common_scalar t s ;;
    gret (mkTr (tr_hash t) (ShaTranscript.common_scalar (tr_st t) (s_v s)) (tr_rest t)).

  (** * Running a list of calls *)
  Inductive rv := RS (x : sval) | RP (x : pval).
  Definition r_s (l : list rv) (i : nat) : G sval := match nth_error l i with Some (RS s) => gret s | _ => gpanic end.
  Definition r_p (l : list rv) (i : nat) : G pval := match nth_error l i with Some (RP P) => gret P | _ => gpanic end.
  Fixpoint r_terms (r : list rv) (l : list (nat * S)) : G (list (sval * S)) :=
    match l with
    | [] => gret []
    | (i, c) :: l => x <-g r_s r i ;; xs <-g r_terms r l ;; gret ((x, c) :: xs)
    end.
  (** results, public inputs left, transcript *)
  Record gst := mkGS { gs_vals : list rv; gs_inst : list S; gs_tr : tr }.
  Definition ret_s (s : gst) (x : sval) : G gst := gret (mkGS (gs_vals s ++ [RS x]) (gs_inst s) (gs_tr s)).
  Definition ret_p (s : gst) (x : pval) : G gst := gret (mkGS (gs_vals s ++ [RP x]) (gs_inst s) (gs_tr s)).
  (** [OInstance]: verify.rs:606-610 between lib.rs:213 and lib.rs:223; the context is
      entered for each public input here, once for all of them there. *)
  Definition gen_op (o : op S W) (s : gst) : G gst :=
    let r := gs_vals s in
    match o with
    | OConst c => x <-g assign_const c ;; ret_s s x
    | OAdd i j => x <-g r_s r i ;; y <-g r_s r j ;; z <-g s_add x y ;; ret_s s z
    | OSub i j => x <-g r_s r i ;; y <-g r_s r j ;; z <-g s_sub x y ;; ret_s s z
    | OMul i j => x <-g r_s r i ;; y <-g r_s r j ;; z <-g s_mul x y ;; ret_s s z
    | ODiv i j => x <-g r_s r i ;; y <-g r_s r j ;; z <-g s_div x y ;; ret_s s z
    | OSquare i => x <-g r_s r i ;; z <-g s_square x ;; ret_s s z
    | OSum l c => xs <-g r_terms r l ;; z <-g s_sum xs c ;; ret_s s z
    | OPConst P => x <-g p_assign_const P ;; ret_p s x
    | OPAdd i j => P <-g r_p r i ;; Q <-g r_p r j ;; z <-g p_add P Q ;; ret_p s z
    | OPSub i j => P <-g r_p r i ;; Q <-g r_p r j ;; z <-g p_sub P Q ;; ret_p s z
    | OPMul i j => x <-g r_s r i ;; P <-g r_p r j ;; z <-g p_mul x P ;; ret_p s z
    | OPMulConst i P => x <-g r_s r i ;; z <-g p_mul_constant x P ;; ret_p s z
    | OInstance =>
        match gs_inst s with
        | [] => gpanic
        | v :: l => _ <-g set_instance true ;; x <-g s_assign_var v ;; _ <-g set_instance false ;; gret (mkGS (r ++ [RS x]) l (gs_tr s))
        end
    | OReadPoint => x <-g read_point (gs_tr s) ;; gret (mkGS (r ++ [RP (fst x)]) (gs_inst s) (snd x))
    | OReadScalar => x <-g read_scalar (gs_tr s) ;; gret (mkGS (r ++ [RS (fst x)]) (gs_inst s) (snd x))
    | OCommonPoint i => P <-g r_p r i ;; t <-g common_point (gs_tr s) P ;; gret (mkGS r (gs_inst s) t)
    | OCommonScalar i => x <-g r_s r i ;; t <-g common_scalar (gs_tr s) x ;; gret (mkGS r (gs_inst s) t)
    | OSqueeze => x <-g squeeze_challenge_scalar (gs_tr s) ;; gret (mkGS (r ++ [RS (fst x)]) (gs_inst s) (snd x))
    end.
  Fixpoint gen_run (l : list (op S W)) (s : gst) : G gst :=
    match l with [] => gret s | o :: l => s <-g gen_op o s ;; gen_run l s end.
  (** lib.rs:193-208: context and transcript, then the calls, on a sample proof *)
  Definition generate (l : list (op S W)) (proof : list Z) (instances : list S) : option (gst * gctx) :=
    (t <-g tr_new proof ;; gen_run l (mkGS [] instances t)) new_ctx.
  Definition r_expr (v : rv) : expr := match v with RS x => s_expr x | RP P => p_expr P end.
  (** lib.rs:296-300, [absorbing_length] *)
  Definition absorbing_length (g : gctx) : N := if (g_maxabs g <? g_abs g)%N then g_abs g else g_maxabs g.
End Chips.
