(** Model of halo2-snark-aggregator-solidity/src/code_generator/ctx.rs: the
    expressions and statements of the generated program, and what the Solidity text
    printed for them does.  Offsets ([usize]) are natural numbers. *)
From Coq Require Import ZArith NArith List Bool.
From Verif Require Import Util Algebra PField Curve Bytes Evm.
Import ListNotations.
Local Open Scope Z_scope.

(** ctx.rs:5-8 *)
Inductive ty := TScalar | TPoint.
(** ctx.rs:11-16 *)
Definition to_length (t : ty) : N := match t with TScalar => 1 | TPoint => 2 end.

(** ctx.rs:27-45; a [BigUint] is an integer *)
Inductive expr :=
| EMemory (o : N) (t : ty)
| ETranscript (o : N) (t : ty)      (** [TransciprtOffset] *)
| EInstance (o : N) (t : ty)        (** [InstanceOffset] *)
| ETmpBuf (o : N) (t : ty)          (** [TmpBufOffset] *)
| EPoint (x y : Z)
| EScalar (s : Z)
| EAdd (l r : expr) (t : ty)
| ESub (l r : expr) (t : ty)
| EMul (l r : expr) (t : ty)
| EDiv (l r : expr) (t : ty)
| EMulAdd (l r c : expr) (t : ty)
| EMulAddPM (target : expr) (opcode : Z) (t : ty)
| EMulAddMT (m : N) (opcode : Z)
| EPow (base : expr) (exp : N) (t : ty)
| EHash (o : N)
| ETemp (t : ty).

(** the derived [PartialEq] *)
Definition ty_eq_dec (a b : ty) : {a = b} + {a <> b}.
Proof. decide equality. Defined.
Definition expr_eq_dec (a b : expr) : {a = b} + {a <> b}.
Proof. decide equality; first [apply N.eq_dec | apply Z.eq_dec | apply ty_eq_dec]. Defined.
Definition ty_eqb (a b : ty) : bool := if ty_eq_dec a b then true else false.
Definition expr_eqb (a b : expr) : bool := if expr_eq_dec a b then true else false.

(** ctx.rs:48-67 *)
Definition is_memory (e : expr) : bool := match e with EMemory _ _ => true | _ => false end.
Definition is_transcript (e : expr) : bool := match e with ETranscript _ _ => true | _ => false end.
Definition is_temp (e : expr) : bool := match e with ETemp _ => true | _ => false end.
(** ctx.rs:69-77 *)
Definition try_get_offset (e : expr) : option N :=
  match e with
  | EMemory o _ | ETranscript o _ | EInstance o _ | ETmpBuf o _ => Some o
  | _ => None
  end.
(** ctx.rs:79-98 *)
Definition get_type (e : expr) : ty :=
  match e with
  | EMemory _ t | ETranscript _ t | EInstance _ t | ETmpBuf _ t
  | EAdd _ _ t | ESub _ _ t | EMul _ _ t | EDiv _ _ t | EMulAdd _ _ _ t | EMulAddPM _ _ t | EPow _ _ t | ETemp t => t
  | EPoint _ _ => TPoint
  | EScalar _ | EHash _ | EMulAddMT _ _ => TScalar
  end.

(** ctx.rs:256-275: the subexpressions visited by [iter], in order *)
Fixpoint leaves (e : expr) : list expr :=
  match e with
  | EAdd l r _ | ESub l r _ | EMul l r _ | EDiv l r _ => leaves l ++ leaves r
  | EMulAdd l r c _ => leaves l ++ leaves r ++ leaves c
  | EPow base _ _ => leaves base
  | t => [t]
  end.
(** ctx.rs:277-300 *)
Fixpoint emap (f : expr -> expr) (e : expr) : expr :=
  match e with
  | EAdd l r t => EAdd (emap f l) (emap f r) t
  | ESub l r t => ESub (emap f l) (emap f r) t
  | EMul l r t => EMul (emap f l) (emap f r) t
  | EDiv l r t => EDiv (emap f l) (emap f r) t
  | EMulAdd l r c t => EMulAdd (emap f l) (emap f r) (emap f c) t
  | EPow base exp t => EPow (emap f base) exp t
  | t => f t
  end.
(** ctx.rs:302-318; the sentinel for a temporary *)
Definition DEADBEAF : N := 0xdeadbeaf.
(** The table [lookup] has the single entry [from] to [to] (linear_scan/mod.rs:46-47). *)
Definition replace (from to : N) (e : expr) : expr :=
  match e with
  | EMemory o t => if (o =? from)%N then (if (to =? DEADBEAF)%N then ETemp t else EMemory to t) else e
  | _ => e
  end.
Definition esubst (from to : N) (e : expr) : expr := emap (replace from to) e.

(** ctx.rs:322-339; the sample values carried by an assignment, which only feed
    comments in the output, are left out. *)
Inductive stmt :=
| Assign (l r : expr)
| UpdateHash (e : expr) (o : N)
| For (memory_start memory_end memory_step absorbing_start absorbing_step : N) (t : ty)
| ForMMMMul (start step : N * N * N) (n : N) (t : ty).
(** ctx.rs:552-565; [None]: the [unreachable!] at line 563 *)
Definition ssubst (from to : N) (s : stmt) : option stmt :=
  match s with
  | Assign l r => Some (Assign (esubst from to l) (esubst from to r))
  | UpdateHash e o => Some (UpdateHash (esubst from to e) o)
  | For _ _ _ _ _ _ => Some s
  | ForMMMMul _ _ _ _ => None
  end.

(** * What the printed program does *)
(** The value of an expression: one word, or the two coordinates of a point. *)
Inductive value := VS (z : Z) | VP (x y : Z).
Definition sc (v : value) : option Z := match v with VS z => Some z | VP _ _ => None end.
Definition pt (v : value) : option (Z * Z) := match v with VP x y => Some (x, y) | VS _ => None end.
(** verifier.sol:340-348: the arguments of [get_wx_wg], the sizes of its arrays, and
    its variables *)
Record env := mkEnv { e_proof : list Z; e_instances : list Z; e_msize : N; e_asize : N }.
Record st := mkSt { mem : arr; t0 : Z; t1 : Z; absorbing : arr }.
Definition st0 : st := mkSt (fun _ => 0) 0 0 (fun _ => 0).

Section Sem.
  Variable W : PF.
  Variable b : W.
  Variable checked : bool.
  Variable sha256 : list Z -> list Z.
  Variable E : env.

  (** A literal that does not fit into a word does not compile. *)
  Definition literal (z : Z) : option Z := if (0 <=? z) && (z <? 2 ^ 256) then Some z else None.
  Definition vp (r : option (Z * Z)) : option value := do (x, y) <- r; Some (VP x y).
  Definition vs (r : option Z) : option value := do z <- r; Some (VS z).

  (** ctx.rs:167-254, [to_typed_string].  Arguments of the wrong number of words do not
      compile, nor do [ecc_div], [fr_from_bytes] and [ecc_from_bytes], which the
      template does not define: no value.  [Hash] occurs only as the whole right hand
      side of an assignment (ctx.rs:608-620) and is handled there. *)
  Fixpoint eval (s : st) (e : expr) : option value :=
    match e with
    | EScalar z => vs (literal z)
    | EPoint x y => do x <- literal x; do y <- literal y; Some (VP x y)
    | EMemory o TScalar => vs (rd (e_msize E) (mem s) o)
    | EMemory o TPoint => do x <- rd (e_msize E) (mem s) o; do y <- rd (e_msize E) (mem s) (o + 1); Some (VP x y)
    | ETranscript o TScalar => vs (calldata (e_proof E) o)
    | ETranscript o TPoint => do x <- calldata (e_proof E) o; do y <- calldata (e_proof E) (o + 1); Some (VP x y)
    | EInstance o TScalar => vs (calldata (e_instances E) o)
    | EInstance o TPoint => do x <- calldata (e_instances E) o; do y <- calldata (e_instances E) (o + 1); Some (VP x y)
    | ETmpBuf _ _ => None
    | EAdd l r TPoint =>
        do l <- eval s l; do r <- eval s r; do (ax, ay) <- pt l; do (bx, by_) <- pt r; vp (ecc_add b ax ay bx by_)
    | EAdd l r TScalar =>
        do l <- eval s l; do r <- eval s r; do x <- sc l; do y <- sc r; Some (VS (fr_add x y))
    | ESub l r TPoint =>
        do l <- eval s l; do r <- eval s r; do (ax, ay) <- pt l; do (bx, by_) <- pt r; vp (ecc_sub b checked ax ay bx by_)
    | ESub l r TScalar =>
        do l <- eval s l; do r <- eval s r; do x <- sc l; do y <- sc r; vs (fr_sub checked x y)
    | EMul k p TPoint =>
        do p <- eval s p; do k <- eval s k; do (px, py) <- pt p; do k <- sc k; vp (ecc_mul b px py k)
    | EMul l r TScalar =>
        do l <- eval s l; do r <- eval s r; do x <- sc l; do y <- sc r; Some (VS (fr_mul x y))
    | EDiv l r TScalar =>
        do l <- eval s l; do r <- eval s r; do x <- sc l; do y <- sc r; vs (fr_div x y)
    | EDiv _ _ TPoint => None
    | EMulAdd l r c TScalar =>
        do l <- eval s l; do r <- eval s r; do c <- eval s c; do x <- sc l; do y <- sc r; do z <- sc c; Some (VS (fr_mul_add x y z))
    | EMulAdd l r c TPoint =>
        do l <- eval s l; do r <- eval s r; do c <- eval s c; do (px, py) <- pt l; do k <- sc r; do (qx, qy) <- pt c;
        vp (ecc_mul_add b px py k qx qy)
    | EHash _ => None
    | EPow base exp TScalar => do x <- eval s base; do x <- sc x; Some (VS (fr_pow x (Z.of_N exp)))
    | EPow _ _ TPoint => None
    | ETemp TScalar => Some (VS (t0 s))
    | ETemp TPoint => Some (VP (t0 s) (t1 s))
    | EMulAddPM target opcode TScalar =>
        do t <- eval s target; do t <- sc t; do opcode <- literal opcode;
        vs (fr_mul_add_pm (e_msize E) (mem s) (e_proof E) opcode t)
    | EMulAddPM target opcode TPoint =>
        do t <- eval s target; do (x, y) <- pt t; do opcode <- literal opcode;
        vp (ecc_mul_add_pm b (e_msize E) (mem s) (e_proof E) opcode x y)
    | EMulAddMT m opcode =>
        do base <- rd (e_msize E) (mem s) m; do opcode <- literal opcode;
        vs (fr_mul_add_mt (e_msize E) (mem s) base opcode (t0 s))
    end.

  (** ctx.rs:100-108, [to_untyped_string], as the target of an assignment *)
  Definition store (s : st) (l : expr) (v : value) : option st :=
    match l, v with
    | EMemory o TScalar, VS z => do m <- wr (e_msize E) (mem s) o z; Some (mkSt m (t0 s) (t1 s) (absorbing s))
    | EMemory o TPoint, VP x y =>
        do m <- wr (e_msize E) (mem s) o x; do m <- wr (e_msize E) m (o + 1) y;
        Some (mkSt m (t0 s) (t1 s) (absorbing s))
    | ETemp TScalar, VS z => Some (mkSt (mem s) z (t1 s) (absorbing s))
    | ETemp TPoint, VP x y => Some (mkSt (mem s) x y (absorbing s))
    | _, _ => None
    end.
  Definition set_abs (s : st) (a : arr) : st := mkSt (mem s) (t0 s) (t1 s) a.

  (** ctx.rs:412-447; [n] iterations from [i] on *)
  Fixpoint for_hash (n : nat) (i ms mst as_ ast : N) (t : ty) (a : arr) : option arr :=
    match n with
    | O => Some a
    | S n =>
        do a <- match t with
                | TScalar => do v <- calldata (e_proof E) (ms + i * mst); update_hash_scalar (e_asize E) v a (as_ + i * ast)
                | TPoint =>
                    do x <- calldata (e_proof E) (ms + i * mst); do y <- calldata (e_proof E) (ms + 1 + i * mst);
                    update_hash_point (e_asize E) x y a (as_ + i * ast)
                end;
        for_hash n (i + 1) ms mst as_ ast t a
    end.
  (** ctx.rs:448-464 *)
  Fixpoint for_mul (n : nat) (i : N) (start step : N * N * N) (m : arr) : option arr :=
    let '(l, a, c) := start in
    let '(dl, da, dc) := step in
    match n with
    | O => Some m
    | S n =>
        do x <- rd (e_msize E) m (a + i * da);
        do y <- rd (e_msize E) m (c + i * dc);
        do m <- wr (e_msize E) m (l + i * dl) (mulmod x y q_mod);
        for_mul n (i + 1) start step m
    end.

  (** ctx.rs:468-550, [to_solidity_string].  [to_mem_code] is always [None], so the
      branch with packed short opcodes is never taken. *)
  Definition exec (s : st) (c : stmt) : option st :=
    match c with
    | Assign l (EHash n) =>
        do (v, a) <- squeeze_challenge sha256 (e_asize E) (absorbing s) n;
        store (set_abs s a) l (VS v)
    | Assign l r => do v <- eval s r; store s l v
    | UpdateHash e o =>
        do v <- eval s e;
        match get_type e with
        | TPoint => do (x, y) <- pt v; do a <- update_hash_point (e_asize E) x y (absorbing s) o; Some (set_abs s a)
        | TScalar => do z <- sc v; do a <- update_hash_scalar (e_asize E) z (absorbing s) o; Some (set_abs s a)
        end
    | For ms me mst as_ ast t =>
        let n := ((me - ms) / mst + 1)%N in
        do a <- for_hash (N.to_nat n) 0 ms mst as_ ast t (absorbing s);
        Some (mkSt (mem s) (Z.of_N n) (t1 s) a)
    | ForMMMMul start step n TScalar =>
        do m <- for_mul (N.to_nat n) 0 start step (mem s);
        Some (mkSt m (Z.of_N n) (t1 s) (absorbing s))
    | ForMMMMul _ _ _ TPoint => None
    end.
  Fixpoint run (p : list stmt) (s : st) : option st :=
    match p with
    | [] => Some s
    | c :: p => do s <- exec s c; run p s
    end.

  (** verifier.sol:340-354, [get_wx_wg]: the two points returned. *)
  Definition get_wx_wg (p : list stmt) (wx wg : expr) : option (Z * Z * Z * Z) :=
    do s <- run p st0;
    do x <- eval s wx; do g <- eval s wg;
    do (x0, y0) <- pt x; do (x1, y1) <- pt g;
    Some (x0, y0, x1, y1).
End Sem.
Arguments eval {W} _ _ _ _ _. Arguments exec {W} _ _ _ _ _ _. Arguments run {W} _ _ _ _ _ _.
Arguments get_wx_wg {W} _ _ _ _ _ _ _.
