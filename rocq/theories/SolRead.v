(** Reading Solidity: the part of the language that the generator uses, from characters to
    what it does.  Written from the Solidity grammar, without reference to the printer. *)
From Coq Require Import ZArith NArith List Bool String Ascii Decimal DecimalString.
From Verif Require Import Util Algebra PField Curve Evm SolIr.
Import ListNotations.
Local Open Scope string_scope.

(** ** Tokens: names, decimal numbers and symbols.  Symbols of two characters ([<=], [++]) are
    two tokens here. *)
Inductive tok := TId (s : string) | TNum (n : N) | TSym (c : ascii).
Definition within (lo hi : nat) (c : ascii) : bool := (lo <=? nat_of_ascii c)%nat && (nat_of_ascii c <=? hi)%nat.
Definition digit (c : ascii) : bool := within 48 57 c.
Definition wordy (c : ascii) : bool := digit c || within 65 90 c || within 97 122 c || within 95 95 c.
Definition blank (c : ascii) : bool := within 32 32 c || within 9 10 c || within 13 13 c.
Definition word_tok (w : string) : option tok :=
  match w with
  | "" => None
  | String c _ => if digit c then do d <- NilEmpty.uint_of_string w; Some (TNum (N.of_uint d)) else Some (TId w)
  end.
(** [w]: the word read so far *)
Definition flush (w : string) (k : option (list tok)) : option (list tok) :=
  match w with "" => k | _ => do t <- word_tok w; do l <- k; Some (t :: l) end.
Fixpoint lex (w s : string) : option (list tok) :=
  match s with
  | "" => flush w (Some [])
  | String c s =>
      if wordy c then lex (w ++ String c "") s
      else flush w (if blank c then lex "" s else do l <- lex "" s; Some (TSym c :: l))
  end.

(** ** Expressions and statements *)
Inductive sx :=
| XNum (n : N)
| XId (s : string)
| XIndex (a : string) (i : sx)
| XCall (f : string) (args : list sx)
| XBin (op : ascii) (l r : sx)
| XTuple (l : list sx).           (** a tuple, or with one component an expression in parentheses *)
Inductive simple_stmt := SAssign (l r : sx) | SCall (e : sx).
Inductive sstmt :=
| SSimple (s : simple_stmt)
(** for (v = a; v < e; v++) { s }, or with <= *)
| SFor (v : string) (a : N) (or_equal : bool) (e : sx) (s : simple_stmt).

(** Recursive descent; [*] binds stronger than [+] and [-], both associate to the left.  [n]
    bounds the recursion. *)
Definition is (c d : ascii) : bool := Ascii.eqb c d.
Definition eat (c : ascii) (ts : list tok) : option (list tok) :=
  match ts with TSym d :: ts => if is d c then Some ts else None | _ => None end.
Fixpoint p_prim (n : nat) (ts : list tok) : option (sx * list tok) :=
  match n with
  | O => None
  | S n =>
      match ts with
      | TNum k :: ts => Some (XNum k, ts)
      | TSym c :: ts => if is c "(" then do (l, ts) <- p_args n ts; Some (XTuple l, ts) else None
      | TId f :: ts' =>
          match ts' with
          | TSym c :: ts =>
              if is c "(" then do (l, ts) <- p_args n ts; Some (XCall f l, ts)
              else if is c "[" then do (i, ts) <- p_sum n ts; do ts <- eat "]" ts; Some (XIndex f i, ts)
              else Some (XId f, ts')
          | _ => Some (XId f, ts')
          end
      | _ => None
      end
  end
with p_mul (n : nat) (ts : list tok) : option (sx * list tok) :=
  match n with O => None | S n => do (l, ts) <- p_prim n ts; p_mul_rest n l ts end
with p_mul_rest (n : nat) (l : sx) (ts : list tok) : option (sx * list tok) :=
  match n with
  | O => None
  | S n =>
      match ts with
      | TSym c :: ts' => if is c "*" then do (r, ts) <- p_prim n ts'; p_mul_rest n (XBin c l r) ts else Some (l, ts)
      | _ => Some (l, ts)
      end
  end
with p_sum (n : nat) (ts : list tok) : option (sx * list tok) :=
  match n with O => None | S n => do (l, ts) <- p_mul n ts; p_sum_rest n l ts end
with p_sum_rest (n : nat) (l : sx) (ts : list tok) : option (sx * list tok) :=
  match n with
  | O => None
  | S n =>
      match ts with
      | TSym c :: ts' => if is c "+" || is c "-" then do (r, ts) <- p_mul n ts'; p_sum_rest n (XBin c l r) ts else Some (l, ts)
      | _ => Some (l, ts)
      end
  end
(** expressions with commas between them, up to the closing parenthesis *)
with p_args (n : nat) (ts : list tok) : option (list sx * list tok) :=
  match n with
  | O => None
  | S n =>
      do (a, ts) <- p_sum n ts;
      match ts with
      | TSym c :: ts => if is c "," then do (l, ts) <- p_args n ts; Some (a :: l, ts) else if is c ")" then Some ([a], ts) else None
      | _ => None
      end
  end.
Definition p_simple (n : nat) (ts : list tok) : option (simple_stmt * list tok) :=
  do (e, ts) <- p_sum n ts;
  match ts with
  | TSym c :: ts =>
      if is c ";" then Some (SCall e, ts)
      else if is c "=" then do (r, ts) <- p_sum n ts; do ts <- eat ";" ts; Some (SAssign e r, ts)
      else None
  | _ => None
  end.
Definition p_stmt (n : nat) (ts : list tok) : option (sstmt * list tok) :=
  match ts with
  | TId f :: ts' =>
      if f =? "for" then
        do ts <- eat "(" ts';
        match ts with
        | TId v :: TSym e :: TNum a :: TSym s :: TId v' :: TSym lt :: ts =>
            if is e "=" && is s ";" && (v' =? v) && is lt "<" then
              let '(eq, ts) := match eat "=" ts with Some ts => (true, ts) | None => (false, ts) end in
              do (b, ts) <- p_sum n ts;
              do ts <- eat ";" ts;
              match ts with
              | TId v'' :: ts =>
                  if v'' =? v then
                    do ts <- eat "+" ts; do ts <- eat "+" ts; do ts <- eat ")" ts; do ts <- eat "{" ts;
                    do (s, ts) <- p_simple n ts;
                    do ts <- eat "}" ts;
                    Some (SFor v a eq b s, ts)
                  else None
              | _ => None
              end
            else None
        | _ => None
        end
      else do (s, ts) <- p_simple n ts; Some (SSimple s, ts)
  | _ => do (s, ts) <- p_simple n ts; Some (SSimple s, ts)
  end.
(** statements up to the return statement at the end *)
Fixpoint p_body (n : nat) (ts : list tok) : option (list sstmt * sx) :=
  match n with
  | O => None
  | S n =>
      let statement := do (s, ts) <- p_stmt n ts; do (l, e) <- p_body n ts; Some (s :: l, e) in
      match ts with
      | TId r :: ts =>
          if r =? "return" then
            do (e, ts) <- p_sum n ts;
            do ts <- eat ";" ts;
            match ts with [] => Some ([], e) | _ => None end
          else statement
      | _ => statement
      end
  end.
Definition read (text : string) : option (list sstmt * sx) :=
  do ts <- lex "" text;
  p_body (List.length ts + 100) ts.

(** ** What it does *)
Definition mapo {A B} (f : A -> option B) : list A -> option (list B) :=
  fix go l := match l with [] => Some [] | a :: l => do b <- f a; do bs <- go l; Some (b :: bs) end.
Inductive arg := AWord (z : Z) | AArray (name : string).
Definition one (l : list Z) : option Z := match l with [z] => Some z | _ => None end.
Definition is_array (a : string) : bool := (a =? "m") || (a =? "proof") || (a =? "instances") || (a =? "absorbing").
Definition array_name (x : sx) : option string := match x with XId a => if is_array a then Some a else None | _ => None end.

Section Sem.
  Variable W : PF.
  Variable b : W.
  Variable checked : bool.
  Variable sha256 : list Z -> list Z.
  Variable E : env.
  Local Open Scope Z_scope.
  Local Open Scope bool_scope.

  (** the result of an addition or a product of words *)
  Definition wrap (z : Z) : option Z := if z <? 2 ^ 256 then Some z else if checked then None else Some (z mod 2 ^ 256).
  Definition binary (op : ascii) (x y : Z) : option Z :=
    if is op "*" then wrap (x * y) else if is op "+" then wrap (x + y) else if is op "-" then Evm.sub checked x y else None.
  Definition index (s : st) (a : string) (i : N) : option Z :=
    if (a =? "m")%string then rd (e_msize E) (mem s) i
    else if (a =? "proof")%string then calldata (e_proof E) i
    else if (a =? "instances")%string then calldata (e_instances E) i
    else None.
  Definition variable (s : st) (v : string) : option Z :=
    if (v =? "t0")%string then Some (t0 s) else if (v =? "t1")%string then Some (t1 s)
    else if (v =? "q_mod")%string then Some q_mod else None.
  (** the functions that return words, with the number of arguments that they take *)
  Definition pair_ (r : option (Z * Z)) : option (list Z) := do (x, y) <- r; Some [x; y].
  Definition call (s : st) (f : string) (args : list arg) : option (list Z) :=
    let f_is g := (f =? g)%string in
    match args with
    | [AWord x; AWord y; AWord n] =>
        if f_is "addmod" then (if n =? 0 then None else Some [addmod x y n])
        else if f_is "mulmod" then (if n =? 0 then None else Some [mulmod x y n])
        else if f_is "fr_mul_add" then Some [fr_mul_add x y n]
        else if f_is "ecc_mul" then pair_ (ecc_mul b x y n)
        else None
    | [AWord x; AWord y] =>
        if f_is "fr_div" then do z <- fr_div x y; Some [z]
        else if f_is "fr_pow" then Some [fr_pow x y]
        else None
    | [AWord ax; AWord ay; AWord bx; AWord by_] =>
        if f_is "ecc_add" then pair_ (ecc_add b ax ay bx by_)
        else if f_is "ecc_sub" then pair_ (ecc_sub b checked ax ay bx by_)
        else None
    | [AWord px; AWord py; AWord k; AWord qx; AWord qy] =>
        if f_is "ecc_mul_add" then pair_ (ecc_mul_add b px py k qx qy) else None
    | [AArray m; AArray proof; AWord opcode; AWord t] =>
        if f_is "fr_mul_add_pm" && (m =? "m")%string && (proof =? "proof")%string
        then do z <- fr_mul_add_pm (e_msize E) (mem s) (e_proof E) opcode t; Some [z] else None
    | [AArray m; AArray proof; AWord opcode; AWord x; AWord y] =>
        if f_is "ecc_mul_add_pm" && (m =? "m")%string && (proof =? "proof")%string
        then pair_ (ecc_mul_add_pm b (e_msize E) (mem s) (e_proof E) opcode x y) else None
    | [AArray m; AWord base; AWord opcode; AWord t] =>
        if f_is "fr_mul_add_mt" && (m =? "m")%string
        then do z <- fr_mul_add_mt (e_msize E) (mem s) base opcode t; Some [z] else None
    | _ => None
    end.

  (** The words of an expression.  An argument, an index and a component of a tuple is one
      word: the result of a function with two results is not spread over two arguments. *)
  Fixpoint ev (s : st) (x : sx) : option (list Z) :=
    match x with
    | XNum n => if (n <? 2 ^ 256)%N then Some [Z.of_N n] else None
    | XId v => do z <- variable s v; Some [z]
    | XIndex a i => do i <- ev s i; do i <- one i; do z <- index s a (Z.to_N i); Some [z]
    | XBin op l r => do l <- ev s l; do r <- ev s r; do l <- one l; do r <- one r; do z <- binary op l r; Some [z]
    | XTuple l => match l with [x] => ev s x | _ => mapo (fun x => do v <- ev s x; one v) l end
    | XCall f args =>
        do args <- mapo (fun x => match array_name x with Some a => Some (AArray a) | None => do v <- ev s x; do z <- one v; Some (AWord z) end) args;
        call s f args
    end.
  Definition argument (s : st) (x : sx) : option arg :=
    match array_name x with Some a => Some (AArray a) | None => do v <- ev s x; do z <- one v; Some (AWord z) end.

  (** An assignment.  The components of a tuple are assigned in order (solc goes the other way,
      which makes no difference for different components). *)
  Definition assign1 (s : st) (l : sx) (z : Z) : option st :=
    match l with
    | XIndex a i =>
        if (a =? "m")%string then
          do i <- ev s i; do i <- one i; do m <- wr (e_msize E) (mem s) (Z.to_N i) z; Some (mkSt m (t0 s) (t1 s) (absorbing s))
        else None
    | XId v =>
        if (v =? "t0")%string then Some (mkSt (mem s) z (t1 s) (absorbing s))
        else if (v =? "t1")%string then Some (mkSt (mem s) (t0 s) z (absorbing s)) else None
    | _ => None
    end.
  Definition assign (s : st) (l : sx) (v : list Z) : option st :=
    match l, v with
    | XTuple [l0; l1], [z0; z1] => do s <- assign1 s l0 z0; assign1 s l1 z1
    | XTuple _, _ => None
    | l, [z] => assign1 s l z
    | _, _ => None
    end.
  (** The right hand side of an assignment; only [squeeze_challenge] has an effect.  Its second
      argument is a uint32. *)
  Definition rhs (s : st) (r : sx) : option (list Z * st) :=
    let pure := do v <- ev s r; Some (v, s) in
    match r with
    | XTuple [XCall f [XId a; XNum n]] =>
        if (f =? "squeeze_challenge")%string && (a =? "absorbing")%string then
          if (n <? 2 ^ 32)%N then
            do (v, a) <- squeeze_challenge sha256 (e_asize E) (absorbing s) n; Some ([v], mkSt (mem s) (t0 s) (t1 s) a)
          else None
        else pure
    | _ => pure
    end.
  Definition do_simple (s : st) (c : simple_stmt) : option st :=
    match c with
    | SAssign l r => do (v, s) <- rhs s r; assign s l v
    | SCall (XCall f args) =>
        do args <- mapo (argument s) args;
        match args with
        | [AWord v; AArray a; AWord pos] =>
            if (f =? "update_hash_scalar")%string && (a =? "absorbing")%string
            then do a <- update_hash_scalar (e_asize E) v (absorbing s) (Z.to_N pos); Some (mkSt (mem s) (t0 s) (t1 s) a) else None
        | [AWord x; AWord y; AArray a; AWord pos] =>
            if (f =? "update_hash_point")%string && (a =? "absorbing")%string
            then do a <- update_hash_point (e_asize E) x y (absorbing s) (Z.to_N pos); Some (mkSt (mem s) (t0 s) (t1 s) a) else None
        | _ => None
        end
    | SCall _ => None
    end.
  (** A loop over t0; it ends after at most [fuel] rounds or has no result. *)
  Fixpoint loop (fuel : nat) (or_equal : bool) (e : sx) (c : simple_stmt) (s : st) : option st :=
    match fuel with
    | O => None
    | S fuel =>
        do v <- ev s e; do v <- one v;
        if (if or_equal then t0 s <=? v else t0 s <? v) then
          do s <- do_simple s c;
          do t <- wrap (t0 s + 1);
          loop fuel or_equal e c (mkSt (mem s) t (t1 s) (absorbing s))
        else Some s
    end.
  Definition do_stmt (s : st) (c : sstmt) : option st :=
    match c with
    | SSimple c => do_simple s c
    | SFor v a or_equal e c =>
        if (v =? "t0")%string then
          let s := mkSt (mem s) (Z.of_N a) (t1 s) (absorbing s) in
          do bound <- ev s e; do bound <- one bound;
          loop (Z.to_nat bound + 2) or_equal e c s
        else None
    end.
  Fixpoint do_stmts (p : list sstmt) (s : st) : option st :=
    match p with [] => Some s | c :: p => do s <- do_stmt s c; do_stmts p s end.
  (** verifier.sol:340-354, [get_wx_wg] with this body: four words are returned *)
  Definition do_body (p : list sstmt * sx) : option (Z * Z * Z * Z) :=
    do s <- do_stmts (fst p) st0;
    do v <- ev s (snd p);
    match v with [x0; y0; x1; y1] => Some (x0, y0, x1, y1) | _ => None end.
End Sem.
Arguments ev {W} _ _ _ _ _. Arguments do_body {W} _ _ _ _ _. Arguments do_stmts {W} _ _ _ _ _ _. Arguments do_stmt {W} _ _ _ _ _ _.
Arguments do_simple {W} _ _ _ _ _ _. Arguments loop {W} _ _ _ _ _ _ _ _ _. Arguments argument {W} _ _ _ _ _. Arguments call {W} _ _ _ _ _ _.
Arguments rhs {W} _ _ _ _ _ _. Arguments assign {W} _ _ _ _ _ _. Arguments assign1 {W} _ _ _ _ _ _.
