(** Model of halo2-snark-aggregator-solidity/src/code_generator/linear_scan: fusing
    multiplications and additions, and the allocation of memory cells. *)
From Coq Require Import ZArith NArith List Bool.
From Verif Require Import Util SolIr.
Import ListNotations.

(** * Ordered sets of offsets ([BTreeSet]) as ascending lists *)
Fixpoint sins (x : N) (s : list N) : list N :=
  match s with
  | [] => [x]
  | y :: s' => if (x <? y)%N then x :: s else if (x =? y)%N then s else y :: sins x s'
  end.
Definition srem (x : N) (s : list N) : list N := filter (fun y => negb (y =? x)%N) s.
Definition smem (x : N) (s : list N) : bool := existsb (fun y => (y =? x)%N) s.

(** * memory_pool.rs *)
(** memory_pool.rs:6-9 *)
Record block := mkBlock { b_pos : N; b_t : ty }.
(** memory_pool.rs:11-17 *)
Record pool := mkPool { free256 : list N; free512 : list N; capability : N }.
(** memory_pool.rs:19-27 *)
Definition pool0 : pool := mkPool [] [] 0.
(** memory_pool.rs:30-39; [None]: the [unwrap] panics *)
Definition alloc_scalar (p : pool) : option (block * pool) :=
  match free256 p with
  | [] => None
  | pos :: _ =>
      Some (mkBlock pos TScalar,
            mkPool (srem pos (free256 p)) (srem (pos - pos mod 2) (free512 p)) (capability p))
  end.
(** memory_pool.rs:41-51 *)
Definition alloc_point (p : pool) : option (block * pool) :=
  match free512 p with
  | [] => None
  | pos :: _ =>
      Some (mkBlock pos TPoint,
            mkPool (srem (pos + 1) (srem pos (free256 p))) (srem pos (free512 p)) (capability p))
  end.
(** memory_pool.rs:53-70 *)
Definition pfree (p : pool) (bl : block) : pool :=
  match b_t bl with
  | TScalar =>
      let f256 := sins (b_pos bl) (free256 p) in
      let base := (b_pos bl - b_pos bl mod 2)%N in
      let f512 := if smem base f256 && smem (base + 1) f256 then sins base (free512 p) else free512 p in
      mkPool f256 f512 (capability p)
  | TPoint =>
      mkPool (sins (b_pos bl + 1) (sins (b_pos bl) (free256 p))) (sins (b_pos bl) (free512 p)) (capability p)
  end.
(** memory_pool.rs:72-79 *)
Definition expand (p : pool) : pool :=
  let addr := capability p in
  mkPool (sins (addr + 1) (sins addr (free256 p))) (sins addr (free512 p)) (addr + 2).

(** * live_interval.rs *)
(** live_interval.rs:6-13; the field [value], never read, is left out *)
Record interval := mkIv { iv_expr : N; iv_t : ty; iv_block : option block; iv_start : nat; iv_end : nat }.
(** [HashMap<Rc<Expression>, usize>]: the latest entry first *)
Definition table := list (expr * nat).
Fixpoint lookup (e : expr) (t : table) : option nat :=
  match t with
  | [] => None
  | (k, i) :: t => if expr_eqb k e then Some i else lookup e t
  end.
Definition set_end (e : nat) (iv : interval) : interval := mkIv (iv_expr iv) (iv_t iv) (iv_block iv) (iv_start iv) e.
Fixpoint update_nth {A} (i : nat) (f : A -> A) (l : list A) : list A :=
  match l, i with
  | [], _ => []
  | x :: l, O => f x :: l
  | x :: l, S i => x :: update_nth i f l
  end.
(** live_interval.rs:45-50 *)
Definition touch (current : nat) (t : table) (ivs : list interval) (e : expr) : list interval :=
  match lookup e t with Some i => update_nth i (set_end current) ivs | None => ivs end.
(** live_interval.rs:23-61; [None]: [unreachable!] *)
Fixpoint build_stmts (current : nat) (p : list stmt) (ivs : list interval) (t : table) : option (list interval * table) :=
  match p with
  | [] => Some (ivs, t)
  | Assign l r :: p =>
      match l with
      | EMemory o _ =>
          let iv := mkIv o (get_type l) None current current in
          let t := (l, length ivs) :: t in
          let ivs := ivs ++ [iv] in
          build_stmts (S current) p (fold_left (touch current t) (leaves r) ivs) t
      | _ => None
      end
  | UpdateHash e _ :: p => build_stmts (S current) p (fold_left (touch current t) (leaves e) ivs) t
  | _ :: _ => None
  end.
(** live_interval.rs:15-73 *)
Definition build_intervals (p : list stmt) (es : list expr) : option (list interval * table) :=
  do (ivs, t) <- build_stmts 0 p [] [];
  Some (fold_left (fun ivs e => fold_left (touch (S (length p)) t) (leaves e) ivs) es ivs, t).

(** * optimize.rs *)
(** optimize.rs:75-80 *)
Definition get_assignee (s : stmt) : option expr := match s with Assign l _ => Some l | _ => None end.
(** optimize.rs:61-73; [None]: the [unwrap] or the index panics *)
Definition able_to_be_optimized (index : nat) (ivs : list interval) (t : table) (s : stmt) : option bool :=
  match get_assignee s with
  | None => Some false
  | Some l => do i <- lookup l t; do iv <- nth_error ivs i; Some (iv_end iv =? S index)%nat
  end.
(** optimize.rs:82-119 *)
Definition combine_pair (curr next : stmt) : option stmt :=
  match curr with
  | Assign assignee (EMul l r t) =>
      match next with
      | Assign new_assignee (EAdd new_l new_r new_t) =>
          if expr_eqb new_l assignee && ty_eqb t new_t then Some (Assign new_assignee (EMulAdd r l new_r t))
          else if expr_eqb new_r assignee && ty_eqb t new_t then Some (Assign new_assignee (EMulAdd r l new_l t))
          else None
      | _ => None
      end
  | _ => None
  end.
(** optimize.rs:13-58; the candidate and the statements left *)
Fixpoint combine_loop (i : nat) (ivs : list interval) (t : table) (cand : option stmt) (p : list stmt) : option (list stmt) :=
  match p with
  | [] => Some (match cand with Some c => [c] | None => [] end)
  | s :: p =>
      do able <- able_to_be_optimized i ivs t s;
      match cand with
      | None =>
          if able then combine_loop (S i) ivs t (Some s) p
          else do q <- combine_loop (S i) ivs t None p; Some (s :: q)
      | Some c =>
          match combine_pair c s with
          | Some s' => do q <- combine_loop (S i) ivs t None p; Some (s' :: q)
          | None =>
              if able then do q <- combine_loop (S i) ivs t (Some s) p; Some (c :: q)
              else do q <- combine_loop (S i) ivs t None p; Some (c :: s :: q)
          end
      end
  end.
Definition combine_mul_add (p : list stmt) (ivs : list interval) (t : table) : option (list stmt) :=
  combine_loop 0 ivs t None p.

(** * mod.rs *)
(** mod.rs:65-74; [active]: a hash set, here in order of insertion.  The order in which
    blocks are freed does not matter (proved: [free_comm]). *)
Definition expire (active : list interval) (i : interval) (p : pool) : option (list interval * pool) :=
  let dead := filter (fun j => (iv_end j <=? iv_start i)%nat) active in
  do p <- foldM (fun p j => do bl <- iv_block j; Some (pfree p bl)) dead p;
  Some (filter (fun j => negb (iv_end j <=? iv_start i)%nat) active, p).
(** mod.rs:24-44 *)
Definition take_block (i : interval) (p : pool) : option (block * pool) :=
  if (iv_end i =? S (iv_start i))%nat then Some (mkBlock DEADBEAF TScalar, p)
  else
    match iv_t i with
    | TScalar => alloc_scalar (match free256 p with [] => expand p | _ => p end)
    | TPoint => alloc_point (match free512 p with [] => expand p | _ => p end)
    end.
(** mod.rs:49-51: substitution in the statements from [start] on *)
Fixpoint subst_from (start : nat) (from to : N) (p : list stmt) : option (list stmt) :=
  match p, start with
  | [], _ => Some []
  | s :: p, O => do s <- ssubst from to s; do p <- subst_from O from to p; Some (s :: p)
  | s :: p, S start => do p <- subst_from start from to p; Some (s :: p)
  end.
(** mod.rs:13-63 *)
Fixpoint linear_scan (ivs : list interval) (active : list interval) (p : list stmt) (es : list expr) (po : pool) :
    option (list stmt * list expr * N) :=
  match ivs with
  | [] => Some (p, es, capability po)
  | i :: ivs =>
      do (active, po) <- expire active i po;
      do (bl, po) <- take_block i po;
      do p <- subst_from (iv_start i) (iv_expr i) (b_pos bl) p;
      let es := map (esubst (iv_expr i) (b_pos bl)) es in
      let active :=
        if (b_pos bl =? DEADBEAF)%N then active
        else active ++ [mkIv (iv_expr i) (iv_t i) (Some bl) (iv_start i) (iv_end i)] in
      linear_scan ivs active p es po
  end.
(** mod.rs:76-91: statements, [wx], [wg], size of the memory *)
Definition memory_optimize (p : list stmt) (wx wg : expr) : option (list stmt * expr * expr * N) :=
  do (ivs, t) <- build_intervals p [wx; wg];
  do p <- combine_mul_add p ivs t;
  do (ivs, _) <- build_intervals p [wx; wg];
  do (p, es, size) <- linear_scan ivs [] p [wx; wg] pool0;
  match es with
  | [wx; wg] => Some (p, wx, wg, size)
  | _ => None
  end.
