(** Model of halo2-snark-aggregator-solidity/templates/verifier.sol: the library
    functions of the generated contract, on 256-bit words.  [None] is a revert.
    Not modelled: gas, and the 32-bit width of the length argument of
    [squeeze_challenge] (at most 2^27 words are absorbed). *)
From Coq Require Import ZArith NArith List Bool.
From Verif Require Import Util Algebra PField Bn254 Curve Bytes.
Import ListNotations.
Local Open Scope Z_scope.

Definition word (z : Z) : Prop := 0 <= z < 2 ^ 256.
(** verifier.sol:40-41, 143-144 *)
Definition q_mod : Z := 21888242871839275222246405745257275088548364400416034343698204186575808495617.
Definition p_mod : Z := 21888242871839275222246405745257275088696311157297823662689037894645226208583.

(** The EVM instructions ADDMOD, MULMOD (intermediate results are not truncated),
    SHR, SHL. *)
Definition addmod (a b n : Z) : Z := (a + b) mod n.
Definition mulmod (a b n : Z) : Z := (a * b) mod n.
Definition shr (v s : Z) : Z := Z.shiftr v s.
Definition shl (v s : Z) : Z := Z.shiftl v s mod 2 ^ 256.

(** verifier.sol:120-141 *)
Definition fr_reverse (input : Z) : Z :=
  let v := input in
  let v := Z.lor (shr (Z.land v 0xFF00FF00FF00FF00FF00FF00FF00FF00FF00FF00FF00FF00FF00FF00FF00FF00) 8)
                 (shl (Z.land v 0x00FF00FF00FF00FF00FF00FF00FF00FF00FF00FF00FF00FF00FF00FF00FF00FF) 8) in
  let v := Z.lor (shr (Z.land v 0xFFFF0000FFFF0000FFFF0000FFFF0000FFFF0000FFFF0000FFFF0000FFFF0000) 16)
                 (shl (Z.land v 0x0000FFFF0000FFFF0000FFFF0000FFFF0000FFFF0000FFFF0000FFFF0000FFFF) 16) in
  let v := Z.lor (shr (Z.land v 0xFFFFFFFF00000000FFFFFFFF00000000FFFFFFFF00000000FFFFFFFF00000000) 32)
                 (shl (Z.land v 0x00000000FFFFFFFF00000000FFFFFFFF00000000FFFFFFFF00000000FFFFFFFF) 32) in
  let v := Z.lor (shr (Z.land v 0xFFFFFFFFFFFFFFFF0000000000000000FFFFFFFFFFFFFFFF0000000000000000) 64)
                 (shl (Z.land v 0x0000000000000000FFFFFFFFFFFFFFFF0000000000000000FFFFFFFFFFFFFFFF) 64) in
  Z.lor (shr v 128) (shl v 128).

(** Memory arrays of fixed size: an access out of range reverts. *)
Definition arr := N -> Z.
Definition rd (size : N) (m : arr) (i : N) : option Z := if (i <? size)%N then Some (m i) else None.
Definition upd (m : arr) (i : N) (v : Z) : arr := fun j => if (j =? i)%N then v else m j.
Definition wr (size : N) (m : arr) (i : N) (v : Z) : option arr := if (i <? size)%N then Some (upd m i v) else None.
(** Calldata arrays. *)
Definition calldata (l : list Z) (i : N) : option Z := nth_error l (N.to_nat i).

Section Contract.
  (** The coordinate field of the curve and its equation y^2 = x^3 + b. *)
  Variable W : PF.
  Variable b : W.
  (** Whether arithmetic is checked: true from Solidity 0.8 on; the pragma
      (verifier.sol:2) also admits earlier compilers. *)
  Variable checked : bool.
  (** The SHA-256 precompile (address 2), on byte strings. *)
  Variable sha256 : list Z -> list Z.
  (** The pairing precompile (address 8). *)
  Variable pairing_precompile : list Z -> option Z.

  (** Solidity subtraction of words. *)
  Definition sub (x y : Z) : option Z :=
    if y <=? x then Some (x - y) else if checked then None else Some (x - y + 2 ^ 256).

  (** EIP-198, address 5: base ^ exponent mod modulus. *)
  Definition modexp (base exponent modulus : Z) : Z := base ^ exponent mod modulus.
  (** EIP-196, addresses 6 and 7: coordinates must be below the field size and the
      point on the curve; (0, 0) is the identity. *)
  Definition decode (x y : Z) : option (point W) :=
    if (x =? 0) && (y =? 0) then Some Inf
    else if (x <? pf_n W) && (y <? pf_n W) then
      (if feq_dec (fmul (ofZ y) (ofZ y)) (fadd (fmul (fmul (ofZ x) (ofZ x)) (ofZ x)) b) then Some (Aff (ofZ x) (ofZ y)) else None)
    else None.
  Definition encode (P : point W) : Z * Z :=
    match P with Inf => (0, 0) | Aff x y => (toZ x, toZ y) end.
  Definition ecAdd (ax ay bx by_ : Z) : option (Z * Z) :=
    do P <- decode ax ay;
    do Q <- decode bx by_;
    Some (encode (padd P Q)).
  Definition ecMul (px py s : Z) : option (Z * Z) :=
    do P <- decode px py;
    Some (encode (smul (Z.to_N s) P)).

  (** verifier.sol:47-65 *)
  Definition fr_pow (a power : Z) : Z := modexp a power q_mod.
  (** verifier.sol:43-45 *)
  Definition fr_invert (a : Z) : Z := fr_pow a (q_mod - 2).
  (** verifier.sol:67-70 *)
  Definition fr_div (a b : Z) : option Z := if b =? 0 then None else Some (mulmod a (fr_invert b) q_mod).
  (** verifier.sol:72-78 *)
  Definition fr_mul_add (a b c : Z) : Z := addmod (mulmod a b q_mod) c q_mod.
  (** The inline expressions printed for additions, subtractions and products of
      scalars (code_generator/ctx.rs:182-186, 192-196, 202-206). *)
  Definition fr_add (l r : Z) : Z := addmod l r q_mod.
  Definition fr_sub (l r : Z) : option Z := do d <- sub q_mod r; Some (addmod l d q_mod).
  Definition fr_mul (l r : Z) : Z := mulmod l r q_mod.

  (** verifier.sol:80-99; [n]: the iterations left, 16 at the start *)
  Fixpoint fr_mul_add_pm_loop (n : nat) (size : N) (m : arr) (proof : list Z) (opcode t : Z) : option Z :=
    match n with
    | O => Some t
    | S n =>
        let a := Z.land opcode 0xff in
        if a =? 0xff then Some t
        else
          let opcode := shr opcode 8 in
          let b := Z.land opcode 0xff in
          let opcode := shr opcode 8 in
          do pa <- calldata proof (Z.to_N a);
          do mb <- rd size m (Z.to_N b);
          fr_mul_add_pm_loop n size m proof opcode (addmod (mulmod pa mb q_mod) t q_mod)
    end.
  Definition fr_mul_add_pm (size : N) (m : arr) (proof : list Z) (opcode t : Z) : option Z :=
    fr_mul_add_pm_loop 16 size m proof opcode t.
  (** verifier.sol:101-118; [n]: the iterations left, 32 at the start *)
  Fixpoint fr_mul_add_mt_loop (n : nat) (size : N) (m : arr) (base opcode t : Z) : option Z :=
    match n with
    | O => Some t
    | S n =>
        let a := Z.land opcode 0xff in
        if a =? 0xff then Some t
        else
          let opcode := shr opcode 8 in
          do ma <- rd size m (Z.to_N a);
          fr_mul_add_mt_loop n size m base opcode (addmod (mulmod base t q_mod) ma q_mod)
    end.
  Definition fr_mul_add_mt (size : N) (m : arr) (base opcode t : Z) : option Z :=
    fr_mul_add_mt_loop 32 size m base opcode t.

  (** verifier.sol:165-185 *)
  Definition ecc_add (ax ay bx by_ : Z) : option (Z * Z) := ecAdd ax ay bx by_.
  (** verifier.sol:187-193 *)
  Definition ecc_sub (ax ay bx by_ : Z) : option (Z * Z) := do y <- sub p_mod by_; ecc_add ax ay bx y.
  (** verifier.sol:195-214 *)
  Definition ecc_mul (px py s : Z) : option (Z * Z) := ecMul px py s.
  (** verifier.sol:216-231: the array [input] of five words; the first call overwrites
      words 1 and 2, the second call words 3 and 4. *)
  Definition ecc_mul_add_ (input : Z * Z * Z * Z * Z) : option (Z * Z * Z * Z * Z) :=
    let '(i0, i1, i2, i3, i4) := input in
    do (i1, i2) <- ecMul i0 i1 i2;
    do (i3, i4) <- ecAdd i1 i2 i3 i4;
    Some (i0, i1, i2, i3, i4).
  (** verifier.sol:233-248 *)
  Definition ecc_mul_add (px py s qx qy : Z) : option (Z * Z) :=
    do (_, _, _, x, y) <- ecc_mul_add_ (px, py, s, qx, qy);
    Some (x, y).
  (** verifier.sol:250-276; [n]: the iterations left, 16 at the start *)
  Fixpoint ecc_mul_add_pm_loop (n : nat) (size : N) (m : arr) (proof : list Z) (opcode : Z)
      (input : Z * Z * Z * Z * Z) : option (Z * Z * Z * Z * Z) :=
    match n with
    | O => Some input
    | S n =>
        let a := Z.land opcode 0xff in
        if a =? 0xff then Some input
        else
          let opcode := shr opcode 8 in
          let b := Z.land opcode 0xff in
          let opcode := shr opcode 8 in
          let '(_, _, _, i3, i4) := input in
          do i0 <- calldata proof (Z.to_N a);
          do i1 <- calldata proof (Z.to_N (a + 1));
          do i2 <- rd size m (Z.to_N b);
          do input <- ecc_mul_add_ (i0, i1, i2, i3, i4);
          ecc_mul_add_pm_loop n size m proof opcode input
    end.
  Definition ecc_mul_add_pm (size : N) (m : arr) (proof : list Z) (opcode t0 t1 : Z) : option (Z * Z) :=
    do (_, _, _, x, y) <- ecc_mul_add_pm_loop 16 size m proof opcode (0, 0, 0, t0, t1);
    Some (x, y).

  (** verifier.sol:278-281; [size]: the length of [absorbing] *)
  Definition update_hash_scalar (size : N) (v : Z) (absorbing : arr) (pos : N) : option arr :=
    do absorbing <- wr size absorbing pos 2;
    wr size absorbing (pos + 1) v.
  (** verifier.sol:283-287 *)
  Definition update_hash_point (size : N) (x y : Z) (absorbing : arr) (pos : N) : option arr :=
    do absorbing <- wr size absorbing pos 1;
    do absorbing <- wr size absorbing (pos + 1) x;
    wr size absorbing (pos + 2) y.
  (** verifier.sol:289-293; [r]: the 32 bytes of the digest, most significant first *)
  Definition be (l : list Z) : Z := leval (rev l).
  Definition to_scalar (r : Z) : Z :=
    fr_reverse r mod 0x30644e72e131a029b85045b68181585d2833e84879b9709143e1f593f0000001.
  (** The first [n] words of memory as bytes, most significant byte first. *)
  Definition word_bytes (z : Z) : list Z := rev (le 32 z).
  Definition mem_bytes (m : arr) (n : N) : list Z :=
    flat_map (fun i => word_bytes (m (N.of_nat i))) (seq 0 (N.to_nat n)).
  (** verifier.sol:295-302, at a length of 32 * [n] + 1 bytes: the last byte is the most
      significant byte of word [n] *)
  Definition hash (absorbing : arr) (n : N) : Z :=
    be (sha256 (mem_bytes absorbing n ++ firstn 1 (word_bytes (absorbing n)))).
  (** verifier.sol:304-310; assigning to [length] has no effect outside *)
  Definition squeeze_challenge (size : N) (absorbing : arr) (length : N) : option (Z * arr) :=
    do absorbing <- wr size absorbing length 0;
    let res := hash absorbing length in
    let v := to_scalar res in
    do absorbing <- wr size absorbing 0 res;
    Some (v, absorbing).

  (** verifier.sol:5-38, for two pairs *)
  Definition pairing (x0 y0 x1 y1 : Z) (g2_0 g2_1 : Z * Z * Z * Z) : option bool :=
    let words '(a, b, c, d) := [a; b; c; d] in
    do r <- pairing_precompile ([x0; y0] ++ words g2_0 ++ [x1; y1] ++ words g2_1);
    Some (negb (r =? 0)).

  (** verifier.sol:360-367 and lib.rs:46-52 ([instance_assign]): the public inputs passed
      to [get_wx_wg]; an access to [target_circuit_final_pair] out of range reverts. *)
  Fixpoint copy_instances (final_pair : list Z) (i : nat) (n : nat) : option (list Z) :=
    match n with
    | O => Some []
    | S n => do v <- nth_error final_pair i; do r <- copy_instances final_pair (S i) n; Some (v :: r)
    end.
  Definition contract_instances (instance_size : nat) (final_pair : list Z) : option (list Z) :=
    do x0 <- nth_error final_pair 0;
    do y0 <- nth_error final_pair 1;
    do x1 <- nth_error final_pair 2;
    do y1 <- nth_error final_pair 3;
    do rest <- copy_instances final_pair 4 (instance_size - 4);
    let mask := 2 ^ 136 - 1 in
    Some (Z.land x0 mask :: shr x0 136 + shl (Z.land y0 1) 136 ::
          Z.land x1 mask :: shr x1 136 + shl (Z.land y1 1) 136 :: rest).
  (** verifier.sol:356-398; [get_wx_wg]: the generated body. *)
  Definition verify (instance_size : nat) (get_wx_wg : list Z -> list Z -> option (Z * Z * Z * Z))
      (verify_s verify_n target_s target_n : Z * Z * Z * Z) (proof final_pair : list Z) : option unit :=
    do instances <- contract_instances instance_size final_pair;
    do (x0, y0, x1, y1) <- get_wx_wg proof instances;
    do ok <- pairing x0 y0 x1 y1 verify_s verify_n;
    if negb ok then None else
    do x0 <- nth_error final_pair 0;
    do y0 <- nth_error final_pair 1;
    do x1 <- nth_error final_pair 2;
    do y1 <- nth_error final_pair 3;
    do ok <- pairing x0 y0 x1 y1 target_s target_n;
    if negb ok then None else Some tt.
End Contract.
Arguments decode {W} _ _ _. Arguments encode {W} _. Arguments ecAdd {W} _ _ _ _ _. Arguments ecMul {W} _ _ _ _.
Arguments ecc_add {W} _ _ _ _ _. Arguments ecc_sub {W} _ _ _ _ _ _. Arguments ecc_mul {W} _ _ _ _.
Arguments ecc_mul_add_ {W} _ _. Arguments ecc_mul_add {W} _ _ _ _ _ _.
Arguments ecc_mul_add_pm_loop {W} _ _ _ _ _ _ _. Arguments ecc_mul_add_pm {W} _ _ _ _ _ _ _.
