(** Model of halo2-snark-aggregator-solidity/src/code_generator/aggregate.rs and
    aggregate/: merging groups of statements. *)
From Coq Require Import ZArith NArith List Bool.
From Verif Require Import Util SolIr.
Import ListNotations.

(** aggregate.rs:23-32 *)
Inductive action := Skip | Continue | Abort | Complete.
(** aggregate.rs:34-41; [None] is a panic *)
Record optimizer := mkOpt {
  o_state : Type;
  o_init : o_state;                                            (** [Default::default()] *)
  o_start : stmt -> o_state -> action * o_state;               (** [try_start] *)
  o_merge : stmt -> o_state -> option (action * o_state);      (** [try_merge] *)
  o_stmt : o_state -> option stmt;                             (** [to_statement] *)
  o_unresolved : o_state -> option (list stmt);                (** [unresolved_statements] *)
  o_reset : o_state -> o_state;                                (** [reset] *)
  o_can_complete : o_state -> bool                             (** [can_complete] *)
}.

Section Driver.
  Variable O : optimizer.
  (** aggregate.rs:89-100, status [Disabled]: the new status (active or not), the new
      state, the statements emitted *)
  Definition disabled (s : stmt) (o : o_state O) : option (bool * o_state O * list stmt) :=
    let '(a, o) := o_start O s o in
    match a with
    | Continue => Some (true, o, [])
    | Skip => Some (false, o, [s])
    | _ => None
    end.
  (** aggregate.rs:86-117, the iterations of the loop spent on one statement: after
      [Abort] and [Complete] the status is [Terminated], the next iteration resets the
      optimizer and the one after it starts again with the same statement. *)
  Definition one (s : stmt) (active : bool) (o : o_state O) : option (bool * o_state O * list stmt) :=
    if active then
      do (a, o) <- o_merge O s o;
      match a with
      | Skip => None
      | Continue => Some (true, o, [])
      | Abort =>
          do us <- o_unresolved O o;
          do (active, o, out) <- disabled s (o_reset O o);
          Some (active, o, us ++ out)
      | Complete =>
          do c <- o_stmt O o;
          do (active, o, out) <- disabled s (o_reset O o);
          Some (active, o, c :: out)
      end
    else disabled s o.
  (** aggregate.rs:80-126 *)
  Fixpoint loop (p : list stmt) (active : bool) (o : o_state O) : option (list stmt) :=
    match p with
    | [] =>
        if active then
          if o_can_complete O o then do c <- o_stmt O o; Some [c]
          else o_unresolved O o
        else Some []
    | s :: p =>
        do (active, o, out) <- one s active o;
        do q <- loop p active o;
        Some (out ++ q)
    end.
  Definition merge_groups (p : list stmt) : option (list stmt) := loop p false (o_init O).
End Driver.

(** Arithmetic of [usize]: a debug build panics on overflow ([wrapping = false]), a
    release build wraps around. *)
Section Usize.
  Variable wrapping : bool.
  Definition usub (a b : N) : option N :=
    if (b <=? a)%N then Some (a - b)%N else if wrapping then Some (a + 2 ^ 64 - b)%N else None.
  Definition umul (a b : N) : option N :=
    if (a * b <? 2 ^ 64)%N then Some (a * b)%N else if wrapping then Some (a * b mod 2 ^ 64)%N else None.
  Definition uadd (a b : N) : option N :=
    if (a + b <? 2 ^ 64)%N then Some (a + b)%N else if wrapping then Some ((a + b) mod 2 ^ 64)%N else None.

  (** * update_hash.rs *)
  (** update_hash.rs:7-16; [in_processing] is true exactly between [try_start] and
      [reset], where alone [can_complete] is asked *)
  Record uh := mkUh { uh_ms : N; uh_me : N; uh_as : N; uh_ae : N; uh_mst : N; uh_ast : N; uh_in : bool; uh_t : ty }.
  (** update_hash.rs:18-31 *)
  Definition uh0 : uh := mkUh 0 0 0 0 0 0 false TScalar.
  (** update_hash.rs:33-51 *)
  Definition uh_start (s : stmt) (o : uh) : action * uh :=
    match s with
    | UpdateHash (ETranscript m t) a =>
        (Continue, mkUh m m a a (match t with TScalar => 1 | TPoint => 2 end) (match t with TScalar => 2 | TPoint => 3 end) true t)
    | _ => (Skip, o)
    end.
  (** update_hash.rs:53-72 *)
  Definition uh_merge (s : stmt) (o : uh) : option (action * uh) :=
    match s with
    | UpdateHash (ETranscript m t) a =>
        do d <- usub m (uh_me o);
        if negb (d =? uh_mst o)%N then Some (Complete, o)
        else
          do d <- usub a (uh_ae o);
          if (d =? uh_ast o)%N && ty_eqb t (uh_t o)
          then Some (Continue, mkUh (uh_ms o) m (uh_as o) a (uh_mst o) (uh_ast o) (uh_in o) (uh_t o))
          else Some (Complete, o)
    | _ => Some (Complete, o)
    end.
  (** update_hash.rs:74-93 *)
  Definition uh_stmt (o : uh) : option stmt :=
    Some (if (uh_ms o =? uh_me o)%N then UpdateHash (ETranscript (uh_ms o) TScalar) (uh_as o)
          else For (uh_ms o) (uh_me o) (uh_mst o) (uh_as o) (uh_ast o) (uh_t o)).
  (** update_hash.rs:95-106 *)
  Definition update_hash_merger : optimizer :=
    mkOpt uh uh0 uh_start uh_merge uh_stmt (fun _ => None)
      (fun o => mkUh (uh_ms o) (uh_me o) (uh_as o) (uh_ae o) (uh_mst o) (uh_ast o) false (uh_t o)) uh_in.

  (** * multi_mul_add_pm.rs *)
  (** multi_mul_add_pm.rs:8-15; the capability is the constant 16 (line 6) *)
  Record pm := mkPm { pm_un : list stmt; pm_target : option expr; pm_pairs : list (N * N); pm_t : ty }.
  Definition pm_CAPABILITY : nat := 16.
  (** multi_mul_add_pm.rs:36-58 *)
  Definition pm_extract (s : stmt) : option (N * N * expr * ty) :=
    match s with
    | Assign l (EMulAdd a b c t) =>
        if is_transcript a && is_memory b && is_temp c && is_temp l then
          do x <- try_get_offset a; do y <- try_get_offset b; Some (x, y, c, t)
        else None
    | _ => None
    end.
  (** multi_mul_add_pm.rs:61-73 *)
  Definition pm_start (s : stmt) (o : pm) : action * pm :=
    match pm_extract s with
    | Some (x, y, c, t) => (Continue, mkPm (pm_un o ++ [s]) (Some c) (pm_pairs o ++ [(x, y)]) t)
    | None => (Skip, o)
    end.
  (** multi_mul_add_pm.rs:75-95 *)
  Definition pm_merge (s : stmt) (o : pm) : option (action * pm) :=
    if (length (pm_pairs o) =? pm_CAPABILITY)%nat then Some (Complete, o)
    else
      match pm_extract s with
      | Some (x, y, c, t) =>
          do target <- pm_target o;
          if expr_eqb c target && ty_eqb t (pm_t o)
          then Some (Continue, mkPm (pm_un o ++ [s]) (pm_target o) (pm_pairs o ++ [(x, y)]) (pm_t o))
          else Some (Abort, o)
      | None => Some (if (1 <? length (pm_pairs o))%nat then Complete else Abort, o)
      end.
  (** multi_mul_add_pm.rs:98-107 *)
  Definition pm_opcode (pairs : list (N * N)) : Z :=
    let init := (if (length pairs =? pm_CAPABILITY)%nat then 0 else 0xffff)%Z in
    fold_left (fun acc '(p, m) => Z.shiftl acc 16 + Z.shiftl (Z.of_N m) 8 + Z.of_N p)%Z (rev pairs) init.
  (** multi_mul_add_pm.rs:97-117 *)
  Definition pm_stmt (o : pm) : option stmt :=
    do target <- pm_target o;
    Some (Assign (ETemp (pm_t o)) (EMulAddPM target (pm_opcode (pm_pairs o)) (pm_t o))).
  (** multi_mul_add_pm.rs:17-28, 119-131 *)
  Definition mul_add_pm_optimizer : optimizer :=
    mkOpt pm (mkPm [] None [] TScalar) pm_start pm_merge pm_stmt (fun o => Some (pm_un o))
      (fun o => mkPm [] None [] (pm_t o)) (fun o => (1 <? length (pm_pairs o))%nat).

  (** * multi_mul_add_mt.rs *)
  (** multi_mul_add_mt.rs:8-15; the capability is the constant 32 (line 6), the type is
      always [Scalar] *)
  Record mt := mkMt { mt_un : list stmt; mt_target : option N; mt_pairs : list N }.
  Definition mt_CAPABILITY : nat := 32.
  (** multi_mul_add_mt.rs:36-54 *)
  Definition mt_extract (s : stmt) : option (N * N) :=
    match s with
    | Assign l (EMulAdd a b c TScalar) =>
        if is_memory a && is_temp b && is_memory c && is_temp l then
          do x <- try_get_offset a; do y <- try_get_offset c; Some (x, y)
        else None
    | _ => None
    end.
  (** multi_mul_add_mt.rs:57-67 *)
  Definition mt_start (s : stmt) (o : mt) : action * mt :=
    match mt_extract s with
    | Some (a, c) => (Continue, mkMt (mt_un o ++ [s]) (Some a) (mt_pairs o ++ [c]))
    | None => (Skip, o)
    end.
  (** multi_mul_add_mt.rs:69-88 *)
  Definition mt_merge (s : stmt) (o : mt) : option (action * mt) :=
    if (length (mt_pairs o) =? mt_CAPABILITY)%nat then Some (Complete, o)
    else
      match mt_extract s with
      | Some (a, c) =>
          do target <- mt_target o;
          if (a =? target)%N then Some (Continue, mkMt (mt_un o ++ [s]) (mt_target o) (mt_pairs o ++ [c]))
          else Some (Abort, o)
      | None => Some (if (1 <? length (mt_pairs o))%nat then Complete else Abort, o)
      end.
  (** multi_mul_add_mt.rs:91-100 *)
  Definition mt_opcode (pairs : list N) : Z :=
    let init := (if (length pairs =? mt_CAPABILITY)%nat then 0 else 0xff)%Z in
    fold_left (fun acc m => Z.shiftl acc 8 + Z.of_N m)%Z (rev pairs) init.
  (** multi_mul_add_mt.rs:90-106 *)
  Definition mt_stmt (o : mt) : option stmt :=
    do target <- mt_target o;
    Some (Assign (ETemp TScalar) (EMulAddMT target (mt_opcode (mt_pairs o)))).
  (** multi_mul_add_mt.rs:17-28, 108-120 *)
  Definition mul_add_mt_optimizer : optimizer :=
    mkOpt mt (mkMt [] None []) mt_start mt_merge mt_stmt (fun o => Some (mt_un o))
      (fun _ => mkMt [] None []) (fun o => (1 <? length (mt_pairs o))%nat).

  (** * aggregate_fr_pow.rs *)
  (** aggregate_fr_pow.rs:6-12 *)
  Record fp := mkFp { fp_un : list stmt; fp_target : option expr; fp_assignee : option expr; fp_exp : N }.
  (** aggregate_fr_pow.rs:32-44 *)
  Definition fp_extract (s : stmt) : option (expr * expr * expr) :=
    match s with
    | Assign l (EMul a b TScalar) => Some (l, a, b)
    | _ => None
    end.
  (** aggregate_fr_pow.rs:47-61 *)
  Definition fp_start (s : stmt) (o : fp) : action * fp :=
    match fp_extract s with
    | Some (l, a, b) =>
        if is_temp l && expr_eqb a b then (Continue, mkFp (fp_un o ++ [s]) (Some a) (fp_assignee o) 2) else (Skip, o)
    | None => (Skip, o)
    end.
  (** aggregate_fr_pow.rs:63-93 *)
  Definition fp_merge (s : stmt) (o : fp) : option (action * fp) :=
    match fp_assignee o with
    | Some _ => Some (Complete, o)
    | None =>
        match fp_extract s with
        | Some (l, a, b) =>
            let assignee := if is_temp l then None else Some l in
            if is_temp a && is_temp b then
              do e <- umul (fp_exp o) 2; Some (Continue, mkFp (fp_un o) (fp_target o) assignee e)
            else
              do target <- fp_target o;
              if (is_temp a && expr_eqb b target) || (is_temp b && expr_eqb a target) then
                do e <- uadd (fp_exp o) 1; Some (Continue, mkFp (fp_un o) (fp_target o) assignee e)
              else Some (Abort, o)
        | None => Some (if (2 <? fp_exp o)%N then Complete else Abort, o)
        end
    end.
  (** aggregate_fr_pow.rs:95-103 *)
  Definition fp_stmt (o : fp) : option stmt :=
    do target <- fp_target o;
    Some (Assign (match fp_assignee o with Some l => l | None => ETemp TScalar end) (EPow target (fp_exp o) TScalar)).
  (** aggregate_fr_pow.rs:14-24, 105-119 *)
  Definition fr_pow_optimizer : optimizer :=
    mkOpt fp (mkFp [] None None 0) fp_start fp_merge fp_stmt (fun o => Some (fp_un o))
      (fun _ => mkFp [] None None 0) (fun o => (2 <? fp_exp o)%N).

  (** * aggregate_mul_seq.rs *)
  (** aggregate_mul_seq.rs:5-14; the three steps are set together *)
  Record ms := mkMs { ms_un : list stmt; ms_step : option (N * N * N); ms_first : N * N * N; ms_cap : N }.
  (** aggregate_mul_seq.rs:37-56 *)
  Definition ms_extract (s : stmt) : option (N * N * N) :=
    match s with
    | Assign l (EMul a b TScalar) =>
        if is_memory a && is_memory b && is_memory l then
          do x <- try_get_offset l; do y <- try_get_offset a; do z <- try_get_offset b; Some (x, y, z)
        else None
    | _ => None
    end.
  (** aggregate_mul_seq.rs:59-70 *)
  Definition ms_start_ (s : stmt) (o : ms) : action * ms :=
    match ms_extract s with
    | Some f => (Continue, mkMs (ms_un o ++ [s]) (ms_step o) f 1)
    | None => (Skip, o)
    end.
  (** [x - start == capability * step] *)
  Definition on_step (x start cap step : N) : option bool :=
    do d <- usub x start; do k <- umul cap step; Some (d =? k)%N.
  Definition ms_can (o : ms) : bool := (4 <? ms_cap o)%N.
  (** aggregate_mul_seq.rs:72-101 *)
  Definition ms_merge (s : stmt) (o : ms) : option (action * ms) :=
    let stop := (if ms_can o then Complete else Abort, o) in
    match ms_extract s with
    | None => Some stop
    | Some (l, a, b) =>
        let '(l0, a0, b0) := ms_first o in
        match ms_step o with
        | None =>
            do dl <- usub l l0; do da <- usub a a0; do db <- usub b b0;
            do cap <- uadd (ms_cap o) 1;
            Some (Continue, mkMs (ms_un o ++ [s]) (Some (dl, da, db)) (ms_first o) cap)
        | Some (dl, da, db) =>
            do okl <- on_step l l0 (ms_cap o) dl;
            if negb okl then Some stop else
            do oka <- on_step a a0 (ms_cap o) da;
            if negb oka then Some stop else
            do okb <- on_step b b0 (ms_cap o) db;
            if negb okb then Some stop else
            do cap <- uadd (ms_cap o) 1;
            Some (Continue, mkMs (ms_un o ++ [s]) (ms_step o) (ms_first o) cap)
        end
    end.
  (** aggregate_mul_seq.rs:103-114 *)
  Definition ms_stmt (o : ms) : option stmt :=
    do step <- ms_step o; Some (ForMMMMul (ms_first o) step (ms_cap o) TScalar).
  (** aggregate_mul_seq.rs:16-29, 116-133 *)
  Definition mul_seq_optimizer : optimizer :=
    mkOpt ms (mkMs [] None (0, 0, 0)%N 0) ms_start_ ms_merge ms_stmt (fun o => Some (ms_un o))
      (fun _ => mkMs [] None (0, 0, 0)%N 0) ms_can.

  (** aggregate.rs:43-135 *)
  Definition aggregate (p : list stmt) : option (list stmt) :=
    do p <- merge_groups update_hash_merger p;
    do p <- merge_groups mul_add_pm_optimizer p;
    do p <- merge_groups mul_add_mt_optimizer p;
    do p <- merge_groups fr_pow_optimizer p;
    merge_groups mul_seq_optimizer p.
End Usize.
