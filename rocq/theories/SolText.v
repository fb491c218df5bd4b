(** Model of the printing of the generated program: code_generator/ctx.rs, the functions
    [to_..._string], and their place in the template (lib.rs:33-54, verifier.sol:346-352). *)
From Coq Require Import ZArith NArith List Bool String Ascii Decimal DecimalString.
From Verif Require Import Util SolIr.
Import ListNotations.
Local Open Scope string_scope.

(** [format!]: the pieces one after the other *)
Definition fmt (l : list string) : string := fold_right append "" l.
(** [{}] of a [usize] or a [BigUint]: decimal digits *)
Definition dec (n : N) : string := NilEmpty.string_of_uint (N.to_uint n).
Definition decz (z : Z) : string := dec (Z.to_N z).
(** ctx.rs:18-23 *)
Definition to_libstring (t : ty) : string := match t with TScalar => "fr" | TPoint => "ecc" end.

(** ctx.rs:100-108; [None]: [unreachable!] *)
Definition to_untyped_string (e : expr) : option string :=
  match e with
  | EMemory idx TScalar => Some (fmt ["m["; dec idx; "]"])
  | EMemory idx TPoint => Some (fmt ["(m["; dec idx; "], m["; dec (idx + 1); "])"])
  | ETemp TScalar => Some "t0"
  | ETemp TPoint => Some "(t0, t1)"
  | _ => None
  end.

(** ctx.rs:166-254; [None]: the assertion at line 229 *)
Fixpoint to_typed_string (e : expr) : option string :=
  match e with
  | EScalar s => Some (decz s)
  | EPoint x y => Some (fmt [decz x; ", "; decz y])
  | EMemory idx TScalar => Some (fmt ["m["; dec idx; "]"])
  | EMemory idx TPoint => Some (fmt ["m["; dec idx; "], m["; dec (idx + 1); "]"])
  | EAdd l r TPoint => do l <- to_typed_string l; do r <- to_typed_string r; Some (fmt ["ecc_add("; l; ", "; r; ")"])
  | EAdd l r TScalar => do l <- to_typed_string l; do r <- to_typed_string r; Some (fmt ["addmod("; l; ", "; r; ", q_mod)"])
  | ESub l r TPoint => do l <- to_typed_string l; do r <- to_typed_string r; Some (fmt ["ecc_sub("; l; ", "; r; ")"])
  | ESub l r TScalar => do l <- to_typed_string l; do r <- to_typed_string r; Some (fmt ["addmod("; l; ", q_mod - "; r; ", q_mod)"])
  | EMul s p TPoint => do p <- to_typed_string p; do s <- to_typed_string s; Some (fmt ["ecc_mul("; p; ", "; s; ")"])
  | EMul l r TScalar => do l <- to_typed_string l; do r <- to_typed_string r; Some (fmt ["mulmod("; l; ", "; r; ", q_mod)"])
  | EDiv l r t => do l <- to_typed_string l; do r <- to_typed_string r; Some (fmt [to_libstring t; "_div("; l; ", "; r; ")"])
  | EMulAdd l r c t =>
      do l <- to_typed_string l; do r <- to_typed_string r; do c <- to_typed_string c;
      Some (fmt [to_libstring t; "_mul_add("; l; ", "; r; ", "; c; ")"])
  | ETranscript offset TScalar => Some (fmt ["proof["; dec offset; "]"])
  | ETranscript offset TPoint => Some (fmt ["proof["; dec offset; "], proof["; dec (offset + 1); "]"])
  | EInstance offset TScalar => Some (fmt ["instances["; dec offset; "]"])
  | EInstance offset TPoint => Some (fmt ["instances["; dec offset; "], instances["; dec (offset + 1); "]"])
  | ETmpBuf offset t => Some (fmt [to_libstring t; "_from_bytes(vars, "; dec offset; ")"])
  | EHash offset => Some (fmt ["squeeze_challenge(absorbing, "; dec offset; ")"])
  | EPow base exp TScalar => do base <- to_typed_string base; Some (fmt ["fr_pow("; base; ", "; dec exp; ")"])
  | EPow _ _ TPoint => None
  | ETemp TScalar => Some "t0"
  | ETemp TPoint => Some "t0, t1"
  | EMulAddPM target opcode t =>
      do target <- to_typed_string target;
      Some (fmt [to_libstring t; "_mul_add_pm(m, proof, "; decz opcode; ", "; target; ")"])
  | EMulAddMT m opcode => Some (fmt ["fr_mul_add_mt(m, m["; dec m; "], "; decz opcode; ", t0)"])
  end.

(** ctx.rs:468-550, [to_solidity_string], with the loops of [to_origin_string]
    (ctx.rs:412-464).  [to_mem_code] is always [None] (ctx.rs:118-119), so there are no short
    opcodes.  [None]: a panic (subtraction below 0, division by 0, [unreachable!]). *)
Definition to_solidity_string (s : stmt) : option (list string) :=
  match s with
  | Assign l r => do l <- to_untyped_string l; do r <- to_typed_string r; Some [fmt [l; " = ("; r; ");"]]
  | UpdateHash e offset =>
      do u <- to_typed_string e;
      match get_type e with
      | TPoint => Some [fmt ["update_hash_point("; u; ", absorbing, "; dec offset; ");"]]
      | TScalar => Some [fmt ["update_hash_scalar("; u; ", absorbing, "; dec offset; ");"]]
      end
  | For memory_start memory_end memory_step absorbing_start absorbing_step t =>
      if (memory_end <? memory_start)%N || (memory_step =? 0)%N then None else
      Some [fmt ["for (t0 = 0; t0 <= "; dec ((memory_end - memory_start) / memory_step); "; t0++) {"];
            match t with
            | TScalar => fmt ["    update_hash_scalar(proof["; dec memory_start; " + t0 * "; dec memory_step; "], absorbing, ";
                dec absorbing_start; " + t0 * "; dec absorbing_step; ");"]
            | TPoint => fmt ["    update_hash_point(proof["; dec memory_start; " + t0 * "; dec memory_step; "], proof[";
                dec (memory_start + 1); " + t0 * "; dec memory_step; "], absorbing, "; dec absorbing_start; " + t0 * "; dec absorbing_step; ");"]
            end;
            "}"]
  | ForMMMMul (l, a, c) (dl, da, dc) n TScalar =>
      Some [fmt ["for (t0 = 0; t0 < "; dec n; "; t0++) {"];
            fmt ["    m["; dec l; " + t0 * "; dec dl; "] = (mulmod(m["; dec a; " + t0 * "; dec da; "], m["; dec c; " + t0 * "; dec dc; "], q_mod));"];
            "}"]
  | ForMMMMul _ _ _ TPoint => None
  end.

(** lib.rs:41-44: the lines of all statements *)
Fixpoint equations (p : list stmt) : option (list string) :=
  match p with
  | [] => Some []
  | s :: p => do l <- to_solidity_string s; do r <- equations p; Some (l ++ r)%list
  end.
(** verifier.sol:348-352: a line break and eight blanks before every line; what stands at the
    ends of the template's lines is blank as well *)
Definition newline : string := String (ascii_of_nat 10) "        ".
Definition get_wx_wg_text (p : list stmt) (wx wg : expr) : option string :=
  do l <- equations p;
  do x <- to_typed_string wx;
  do g <- to_typed_string wg;
  Some (fmt (flat_map (fun l => [newline; l]) l ++ [newline; "return ("; x; ", "; g; ");"])).
