(** Foreign-field integers on the five-column gate:
    halo2-ecc-circuit-lib/src/chips/integer_chip.rs and
    halo2-ecc-circuit-lib/src/five/integer_chip.rs.

    An integer is four limbs of 68 bits (AssignedInteger.limbs_le always has
    length LIMBS = 4; modelled as a record of four cells).  Functions taking
    [&mut AssignedInteger] return the updated integer.  The checks under
    [PREREQUISITE_CHECK] (off in five/config.rs:3) are not part of the run; what
    they assert is proved where needed. *)
From Coq Require Import ZArith Arith Lia List Bool.
From Verif Require Import Util Algebra PField Gate.
Import ListNotations.

(** five/integer_chip.rs:16-25 *)
Definition LIMBS : nat := 4.
Definition COMMON_RANGE_BITS : nat := 17.
Definition LIMB_WIDTH : Z := 68.
Definition OVERFLOW_LIMIT : nat := 64.
Definition OVERFLOW_THRESHOLD : nat := 32.

(** BigUint::bits *)
Definition nbits (z : Z) : Z := if (z <=? 0)%Z then 0 else Z.log2 z + 1.

Section Chip.
  Variables N W : PF.
  Local Open Scope fld_scope.
  Local Notation aval := (aval N).
  Local Notation B := (B N).

  (** chips/integer_chip.rs:11-18, [AssignedInteger] *)
  Record aint := AI { l0 : aval; l1 : aval; l2 : aval; l3 : aval; native_of : option aval; overflows : nat }.
  Definition limbs (a : aint) : list aval := [l0 a; l1 a; l2 a; l3 a].

  (** chips/integer_chip.rs:94-128, [IntegerChipHelper::new] *)
  Definition limb_modulus : Z := (2 ^ LIMB_WIDTH)%Z.
  Definition integer_modulus : Z := (2 ^ (LIMB_WIDTH * 4))%Z.
  Definition w_modulus : Z := pf_n W.
  Definition n_modulus : Z := pf_n N.
  Definition limb_modulus_on_n : N := ofZ limb_modulus.
  (** [limb_modulus_exps[i]] *)
  Definition limb_exp (i : nat) : N := fpow limb_modulus_on_n i.
  Definition w_native : N := ofZ (w_modulus mod n_modulus).
  Definition w_ceil_bits : Z := nbits w_modulus.
  Definition n_floor_bits : Z := (nbits n_modulus - 1)%Z.
  (** utils.rs:48-57, [get_d_range_bits_in_mul] (its assertion is
      [d_bits_assert] in IntegerFacts.v) *)
  Definition d_bits : Z :=
    (nbits (Z.shiftr (Z.lcm integer_modulus n_modulus) (nbits (w_modulus - 1)) - 1) - 1)%Z.

  (** chips/integer_chip.rs:74-84, [_bn_to_limb_le] *)
  Definition bn_limb (i : nat) (bn : Z) : Z :=
    match i with
    | 0%nat => bn mod limb_modulus
    | 1%nat => (Z.shiftr bn LIMB_WIDTH) mod limb_modulus
    | 2%nat => (Z.shiftr (Z.shiftr bn LIMB_WIDTH) LIMB_WIDTH) mod limb_modulus
    | _ => Z.shiftr (Z.shiftr (Z.shiftr bn LIMB_WIDTH) LIMB_WIDTH) LIMB_WIDTH
    end%Z.

  (** chips/integer_chip.rs:34-41, [AssignedInteger::bn] on the prover's values *)
  Definition bn_of (a : aint) : Z :=
    (((toZ (av_val (l3 a)) * limb_modulus + toZ (av_val (l2 a))) * limb_modulus
      + toZ (av_val (l1 a))) * limb_modulus + toZ (av_val (l0 a)))%Z.
  (** chips/integer_chip.rs:43-47, [AssignedInteger::w] *)
  Definition w_of (a : aint) : W := ofZ (bn_of a mod w_modulus).

  (** gates/range_gate.rs:206-232: bits of the leading range tables *)
  Definition leading_table (bits : Z) : nat :=
    let r := (bits mod 17)%Z in if (r =? 0)%Z then COMMON_RANGE_BITS else Z.to_nat r.
  Definition w_table : nat := leading_table (nbits (w_modulus - 1)).
  Definition n_table : nat := leading_table (nbits (n_modulus - 1) - 1).
  Definition d_table : nat := leading_table d_bits.

  (** utils.rs:20-35, [decompose_bn]; the k-th chunk and its weight *)
  Definition decompose_bn (v : Z) (chunks : nat) : list (N * N) :=
    map (fun i => (ofZ (Z.land (Z.shiftr v (Z.of_nat (i * 17))) (2 ^ 17 - 1)), ofZ (2 ^ Z.of_nat (i * 17)))) (seq 0 chunks).
  Definition schema_of (chunks : list (N * N)) : list (vschema N * N) := map (fun ab => (VU (fst ab), snd ab)) (rev chunks).

  (** five/integer_chip.rs:324-341 *)
  Definition assign_nonleading_limb (n : N) : B aval :=
    cells <- one_line_in_range COMMON_RANGE_BITS None (schema_of (decompose_bn (toZ n) 4) ++ [(VU n, - (1))]) 0 [] 0 ;;
    at_ cells (VAR_COLUMNS - 1).

  (** five/integer_chip.rs:343-372, 374-402 *)
  Definition assign_leading_limb (bits : Z) (table : nat) (n : N) : B aval :=
    let leading := (bits mod LIMB_WIDTH)%Z in
    if (leading =? 0)%Z then assign_nonleading_limb n else
    let nchunks := Z.to_nat ((leading + 17 - 1) / 17) in
    guard (nchunks <? VAR_COLUMNS)%nat ;;;
    cells <- one_line_in_range COMMON_RANGE_BITS (Some table)
               (resize (VAR_COLUMNS - 1) pair_empty (schema_of (decompose_bn (toZ n) nchunks)) ++ [(VU n, - (1))]) 0 [] 0 ;;
    at_ cells (VAR_COLUMNS - 1).
  Definition assign_n_floor_leading_limb := assign_leading_limb n_floor_bits n_table.
  Definition assign_w_ceil_leading_limb := assign_leading_limb w_ceil_bits w_table.

  (** five/integer_chip.rs:404-426 (no bound on the number of chunks) *)
  Definition assign_d_leading_limb (n : N) : B aval :=
    let leading := (d_bits mod LIMB_WIDTH)%Z in
    if (leading =? 0)%Z then assign_nonleading_limb n else
    let nchunks := Z.to_nat (leading / 17 + (if (leading mod 17 =? 0)%Z then 0 else 1)) in
    cells <- one_line_in_range COMMON_RANGE_BITS (Some d_table)
               (resize (VAR_COLUMNS - 1) pair_empty (schema_of (decompose_bn (toZ n) nchunks)) ++ [(VU n, - (1))]) 0 [] 0 ;;
    at_ cells (VAR_COLUMNS - 1).

  (** five/integer_chip.rs:428-445; the quotient, four limbs *)
  Record alimbs := AL { d0 : aval; d1 : aval; d2 : aval; d3 : aval }.
  Definition assign_d (v : Z) : B alimbs :=
    x3 <- assign_d_leading_limb (ofZ (bn_limb 3 v)) ;;
    x2 <- assign_nonleading_limb (ofZ (bn_limb 2 v)) ;;
    x1 <- assign_nonleading_limb (ofZ (bn_limb 1 v)) ;;
    x0 <- assign_nonleading_limb (ofZ (bn_limb 0 v)) ;;
    ret (AL x0 x1 x2 x3).

  (** five/integer_chip.rs:447-464 *)
  Definition assign_w (v : W) : B aint :=
    let bn := toZ v in
    x3 <- assign_w_ceil_leading_limb (ofZ (bn_limb 3 bn)) ;;
    x2 <- assign_nonleading_limb (ofZ (bn_limb 2 bn)) ;;
    x1 <- assign_nonleading_limb (ofZ (bn_limb 1 bn)) ;;
    x0 <- assign_nonleading_limb (ofZ (bn_limb 0 bn)) ;;
    ret (AI x0 x1 x2 x3 None 0).

  (** five/integer_chip.rs:466-481 (unused by the other operations) *)
  Definition assign_integer (v : Z) : B alimbs :=
    x0 <- assign_nonleading_limb (ofZ (bn_limb 0 v)) ;;
    x1 <- assign_nonleading_limb (ofZ (bn_limb 1 v)) ;;
    x2 <- assign_nonleading_limb (ofZ (bn_limb 2 v)) ;;
    x3 <- assign_nonleading_limb (ofZ (bn_limb 3 v)) ;;
    ret (AL x0 x1 x2 x3).

  Definition with_exps (x0 x1 x2 x3 : aval) : list (aval * N) :=
    [(x0, limb_exp 0); (x1, limb_exp 1); (x2, limb_exp 2); (x3, limb_exp 3)].

  (** five/integer_chip.rs:595-621; returns the native cell and the integer with
      its cache filled. *)
  Definition int_native (a : aint) : B (aval * aint) :=
    match native_of a with
    | Some n => ret (n, a)
    | None => n <- sum_with_constant (with_exps (l0 a) (l1 a) (l2 a) (l3 a)) 0 ;;
              ret (n, AI (l0 a) (l1 a) (l2 a) (l3 a) (Some n) (overflows a))
    end.

  (** five/integer_chip.rs:483-581 *)
  Definition int_reduce (a : aint) : B aint :=
    if (overflows a =? 0)%nat then ret a else
    guard (overflows a <? OVERFLOW_LIMIT)%nat ;;;
    let a_bn := bn_of a in
    let d := (a_bn / w_modulus)%Z in
    let rem := (a_bn mod w_modulus)%Z in
    let pos := (d * bn_limb 0 w_modulus + bn_limb 0 rem + limb_modulus * Z.of_nat OVERFLOW_LIMIT)%Z in
    guard (toZ (av_val (l0 a)) <=? pos)%Z ;;;
    let u := (pos - toZ (av_val (l0 a)))%Z in
    let v := (u / limb_modulus)%Z in
    rem <- assign_w (ofZ rem) ;;
    cells <- one_line_in_range COMMON_RANGE_BITS None [(VU (ofZ d), 0); (VU (ofZ v), 0)] 0 [] 0 ;;
    d <- at_ cells 0 ;;
    v <- at_ cells 1 ;;
    rn <- int_native rem ;;
    an <- int_native a ;;
    one_line_add [(VA (fst an), - (1)); (VA d, w_native); (VA (fst rn), 1)] 0 ;;;
    one_line_add [(VA d, ofZ (bn_limb 0 w_modulus)); (VA (l0 (snd rn)), 1); (VA (l0 (snd an)), - (1));
                  (VA v, - ofZ limb_modulus)] (ofZ (limb_modulus * Z.of_nat OVERFLOW_LIMIT)) ;;;
    ret (snd rn).

  (** five/integer_chip.rs:583-593 *)
  Definition conditionally_reduce (a : aint) : B aint :=
    if (OVERFLOW_THRESHOLD <=? overflows a)%nat then int_reduce a else ret a.

  (** five/integer_chip.rs:31-51; [None]: the BigUint subtraction panics. *)
  Definition find_w_modulus_ceil (ov : nat) : option (Z * Z * Z * Z) :=
    let k := (Z.of_nat ov + 1)%Z in
    let max_a := (k * 2 ^ w_ceil_bits)%Z in
    let n := (if (0 <? max_a mod w_modulus)%Z then max_a / w_modulus + 1 else max_a / w_modulus)%Z in
    let step (upper : Z) : option (Z * Z) :=
      let rem := (upper mod limb_modulus + k * limb_modulus)%Z in
      if (rem <=? upper)%Z then Some (rem, (upper - rem) / limb_modulus)%Z else None in
    do (x0, u1) <- step (n * w_modulus)%Z;
    do (x1, u2) <- step u1;
    do (x2, u3) <- step u2;
    Some (x0, x1, x2, u3).

  Definition opt {A} (o : option A) : B A := match o with Some a => ret a | None => panic end.

  (** five/integer_chip.rs:641-658 *)
  Definition int_add (a b : aint) : B aint :=
    x0 <- add (l0 a) (l0 b) ;;
    x1 <- add (l1 a) (l1 b) ;;
    x2 <- add (l2 a) (l2 b) ;;
    x3 <- add (l3 a) (l3 b) ;;
    conditionally_reduce (AI x0 x1 x2 x3 None (overflows a + overflows b + 1)).

  (** five/integer_chip.rs:660-683 *)
  Definition int_sub (a b : aint) : B aint :=
    up <- opt (find_w_modulus_ceil (overflows b)) ;;
    let '(u0, u1, u2, u3) := up in
    x0 <- sum_with_constant [(l0 a, 1); (l0 b, - (1))] (ofZ u0) ;;
    x1 <- sum_with_constant [(l1 a, 1); (l1 b, - (1))] (ofZ u1) ;;
    x2 <- sum_with_constant [(l2 a, 1); (l2 b, - (1))] (ofZ u2) ;;
    x3 <- sum_with_constant [(l3 a, 1); (l3 b, - (1))] (ofZ u3) ;;
    conditionally_reduce (AI x0 x1 x2 x3 None (overflows a + (overflows b + 1) + 1)).

  (** five/integer_chip.rs:685-707 *)
  Definition int_neg (a : aint) : B aint :=
    up <- opt (find_w_modulus_ceil (overflows a)) ;;
    let '(u0, u1, u2, u3) := up in
    x0 <- sum_with_constant [(l0 a, - (1))] (ofZ u0) ;;
    x1 <- sum_with_constant [(l1 a, - (1))] (ofZ u1) ;;
    x2 <- sum_with_constant [(l2 a, - (1))] (ofZ u2) ;;
    x3 <- sum_with_constant [(l3 a, - (1))] (ofZ u3) ;;
    conditionally_reduce (AI x0 x1 x2 x3 None (overflows a + 1)).

  (** five/integer_chip.rs:140-166: limb [pos] of [a*b + d*(2^272 - w)] *)
  Definition neg_w (i : nat) : N := ofZ (bn_limb i (integer_modulus - w_modulus)).

  (** five/integer_chip.rs:104-252 *)
  Definition mul_limbs (a b : aint) (d : alimbs) (rem : aint) : B unit :=
    guard (overflows a <? OVERFLOW_LIMIT)%nat ;;;
    guard (overflows b <? OVERFLOW_LIMIT)%nat ;;;
    guard (overflows rem <? OVERFLOW_LIMIT)%nat ;;;
    m0 <- mul_add_with_next_line [(l0 a, l0 b, d0 d, neg_w 0)] ;;
    m1 <- mul_add_with_next_line [(l0 a, l1 b, d0 d, neg_w 1); (l1 a, l0 b, d1 d, neg_w 0)] ;;
    m2 <- mul_add_with_next_line [(l0 a, l2 b, d0 d, neg_w 2); (l1 a, l1 b, d1 d, neg_w 1); (l2 a, l0 b, d2 d, neg_w 0)] ;;
    m3 <- mul_add_with_next_line [(l0 a, l3 b, d0 d, neg_w 3); (l1 a, l2 b, d1 d, neg_w 2);
                                  (l2 a, l1 b, d2 d, neg_w 1); (l3 a, l0 b, d3 d, neg_w 0)] ;;
    let u0 := (av_val m1 - av_val (l1 rem)) * limb_modulus_on_n + av_val m0 - av_val (l0 rem) + limb_exp 2 in
    let v0 := u0 * finv (limb_exp 2) in
    let v0_h := (toZ v0 / limb_modulus)%Z in
    let v0_l := (toZ v0 mod limb_modulus)%Z in
    let u1 := v0 - 1 + av_val m2 - av_val (l2 rem) + (av_val m3 - av_val (l3 rem)) * limb_modulus_on_n in
    let v1 := u1 * finv (limb_exp 2) in
    let v1_h := (toZ v1 / limb_modulus)%Z in
    let v1_l := (toZ v1 mod limb_modulus)%Z in
    v0_h <- assign_n_floor_leading_limb (ofZ v0_h) ;;
    v0_l <- assign_nonleading_limb (ofZ v0_l) ;;
    v1_h <- assign_n_floor_leading_limb (ofZ v1_h) ;;
    v1_l <- assign_nonleading_limb (ofZ v1_l) ;;
    u0 <- sum_with_constant [(m0, 1); (m1, limb_modulus_on_n); (l0 rem, - (1)); (l1 rem, - limb_modulus_on_n)] (limb_exp 2) ;;
    one_line_add [(VA u0, - (1)); (VA v0_l, limb_exp 2); (VA v0_h, limb_exp 3)] 0 ;;;
    u1 <- sum_with_constant [(m2, 1); (m3, limb_modulus_on_n); (l2 rem, - (1)); (l3 rem, - limb_modulus_on_n)] 0 ;;
    one_line_add [(VA u1, 1); (VA v0_l, limb_exp 0); (VA v0_h, limb_exp 1); (VA v1_l, - limb_exp 2); (VA v1_h, - limb_exp 3)] (- (1)) ;;;
    ret tt.

  (** five/integer_chip.rs:254-287; returns the three integers with their native
      caches filled. *)
  Definition mul_native (a b : aint) (d : alimbs) (rem : aint) : B (aint * aint * aint) :=
    an <- int_native a ;;
    bn <- int_native b ;;
    dn <- sum_with_constant (with_exps (d0 d) (d1 d) (d2 d) (d3 d)) 0 ;;
    rn <- int_native rem ;;
    one_line [(VA (fst an), 0); (VA (fst bn), 0); (VA dn, - w_native); (VA (fst rn), - (1))] 0 [1] 0 ;;;
    ret (snd an, snd bn, snd rn).

  (** five/integer_chip.rs:289-320 *)
  Definition square_native (a : aint) (d : alimbs) (rem : aint) : B (aint * aint) :=
    an <- int_native a ;;
    dn <- sum_with_constant (with_exps (d0 d) (d1 d) (d2 d) (d3 d)) 0 ;;
    rn <- int_native rem ;;
    one_line [(VA (fst an), 0); (VA (fst an), 0); (VA dn, - w_native); (VA (fst rn), - (1))] 0 [1] 0 ;;;
    ret (snd an, snd rn).

  (** five/integer_chip.rs:709-726; returns (product, a, b) *)
  Definition int_mul (a b : aint) : B (aint * aint * aint) :=
    let ab := (bn_of a * bn_of b)%Z in
    rem <- assign_w (ofZ (ab mod w_modulus)) ;;
    d <- assign_d (ab / w_modulus) ;;
    mul_limbs a b d rem ;;;
    abr <- mul_native a b d rem ;;
    let '(a, b, rem) := abr in
    ret (rem, a, b).

  (** five/integer_chip.rs:728-743; returns (square, a) *)
  Definition int_square (a : aint) : B (aint * aint) :=
    let aa := (bn_of a * bn_of a)%Z in
    rem <- assign_w (ofZ (aa mod w_modulus)) ;;
    d <- assign_d (aa / w_modulus) ;;
    mul_limbs a a d rem ;;;
    ar <- square_native a d rem ;;
    ret (snd ar, fst ar).

  (** five/integer_chip.rs:53-67 *)
  Definition is_pure_zero (a : aint) : B aval :=
    s <- sum_with_constant [(l0 a, 1); (l1 a, 1); (l2 a, 1); (l3 a, 1)] 0 ;;
    is_zero s.

  (** five/integer_chip.rs:69-102; returns (flag, a) *)
  Definition is_pure_w_modulus (a : aint) : B (aval * aint) :=
    an <- int_native a ;;
    native_diff <- sum_with_constant [(fst an, 1)] (- w_native) ;;
    is_native_eq <- is_zero native_diff ;;
    limb0_diff <- sum_with_constant [(l0 (snd an), 1)] (- ofZ (bn_limb 0 w_modulus)) ;;
    is_limb0_eq <- is_zero limb0_diff ;;
    r <- and_ is_native_eq is_limb0_eq ;;
    ret (r, snd an).

  (** five/integer_chip.rs:796-806; returns (flag, a) *)
  Definition int_is_zero (a : aint) : B (aval * aint) :=
    a <- int_reduce a ;;
    z <- is_pure_zero a ;;
    wa <- is_pure_w_modulus a ;;
    r <- or_ z (fst wa) ;;
    ret (r, snd wa).

  (** chips/integer_chip.rs:199-207 *)
  Definition int_is_equal (a b : aint) : B aval :=
    diff <- int_sub a b ;;
    r <- int_is_zero diff ;;
    ret (fst r).

  (** five/integer_chip.rs:623-639 *)
  Definition int_assert_equal (a b : aint) : B unit :=
    diff <- int_sub a b ;;
    diff <- int_reduce diff ;;
    dn <- int_native diff ;;
    assert_constant (fst dn) 0 ;;;
    assert_constant (l0 (snd dn)) 0.

  (** five/integer_chip.rs:745-782; returns (flag, quotient, a, b); the caller's
      [a] is the reduced one. *)
  Definition int_div (a b : aint) : B (aval * aint * aint * aint) :=
    zb <- int_is_zero b ;;
    let '(is_b_zero, b) := zb in
    a_coeff <- not_ is_b_zero ;;
    a' <- int_reduce a ;;
    x0 <- mul (l0 a') a_coeff ;;
    x1 <- mul (l1 a') a_coeff ;;
    x2 <- mul (l2 a') a_coeff ;;
    x3 <- mul (l3 a') a_coeff ;;
    let a := AI x0 x1 x2 x3 None (overflows a') in
    let b_w := w_of b in
    let c : W := (if feq_dec b_w 0 then 0 else finv b_w) * w_of a in
    let cb := (toZ c * bn_of b)%Z in
    guard (bn_of a <=? cb)%Z ;;;
    let d := ((cb - bn_of a) / w_modulus)%Z in
    c <- assign_w c ;;
    d <- assign_d d ;;
    mul_limbs b c d a ;;;
    bca <- mul_native b c d a ;;
    let '(b, c, a) := bca in
    ret (is_b_zero, c, a', b).

  (** five/integer_chip.rs:784-794 *)
  Definition int_assign_constant (v : W) : B aint :=
    let bn := toZ v in
    x0 <- assign_constant (ofZ (bn_limb 0 bn)) ;;
    x1 <- assign_constant (ofZ (bn_limb 1 bn)) ;;
    x2 <- assign_constant (ofZ (bn_limb 2 bn)) ;;
    x3 <- assign_constant (ofZ (bn_limb 3 bn)) ;;
    ret (AI x0 x1 x2 x3 None 0).

  (** five/integer_chip.rs:808-835; returns (product, a) *)
  Definition mul_small_constant (a : aint) (b : nat) : B (aint * aint) :=
    guard (b <? OVERFLOW_LIMIT)%nat ;;;
    a <- (if (OVERFLOW_LIMIT <=? overflows a * b)%nat then int_reduce a else ret a) ;;
    let k : N := ofZ (Z.of_nat b) in
    x0 <- sum_with_constant [(l0 a, k)] 0 ;;
    x1 <- sum_with_constant [(l1 a, k)] 0 ;;
    x2 <- sum_with_constant [(l2 a, k)] 0 ;;
    x3 <- sum_with_constant [(l3 a, k)] 0 ;;
    r <- conditionally_reduce (AI x0 x1 x2 x3 None (overflows a * b)) ;;
    ret (r, a).

  (** five/integer_chip.rs:845-866 *)
  Definition int_bisec (cond : aval) (a b : aint) : B aint :=
    x0 <- bisec cond (l0 a) (l0 b) ;;
    x1 <- bisec cond (l1 a) (l1 b) ;;
    x2 <- bisec cond (l2 a) (l2 b) ;;
    x3 <- bisec cond (l3 a) (l3 b) ;;
    ret (AI x0 x1 x2 x3 None (if (overflows b <? overflows a)%nat then overflows a else overflows b)).

  (** five/integer_chip.rs:874-901 *)
  Definition get_last_bit (a : aint) : B aval :=
    let v := toZ (av_val (l0 a)) in
    let bit : N := if Z.odd v then 1 else 0 in
    d <- assign_nonleading_limb (ofZ (v / 2)) ;;
    cells <- one_line [(VA d, ofZ 2); (VU bit, 1); (VA (l0 a), - (1))] 0 [] 0 ;;
    r <- at_ cells 1 ;;
    assert_bit r ;;;
    ret r.
End Chip.

Arguments AI {N} _ _ _ _ _ _. Arguments l0 {N} _. Arguments l1 {N} _. Arguments l2 {N} _. Arguments l3 {N} _.
Arguments native_of {N} _. Arguments overflows {N} _. Arguments limbs {N} _. Arguments bn_of {N} _.
Arguments AL {N} _ _ _ _. Arguments d0 {N} _. Arguments d1 {N} _. Arguments d2 {N} _. Arguments d3 {N} _.
Arguments with_exps {N} _ _ _ _. Arguments int_native {N} _ _.
Arguments opt {N A} _ _. Arguments decompose_bn {N} _ _. Arguments schema_of {N} _.
Arguments assign_nonleading_limb {N} _ _. Arguments assign_leading_limb {N} _ _ _ _.
Arguments assign_integer {N} _ _. Arguments is_pure_zero {N} _ _. Arguments int_bisec {N} _ _ _ _.
Arguments get_last_bit {N} _ _. Arguments int_assign_constant {N W} _ _. Arguments assign_w {N W} _ _.
Arguments assign_d {N} W _ _. Arguments w_of {N} W _.
Arguments int_reduce {N} W _ _. Arguments conditionally_reduce {N} W _ _. Arguments int_add {N} W _ _ _.
Arguments int_sub {N} W _ _ _. Arguments int_neg {N} W _ _. Arguments mul_limbs {N} W _ _ _ _ _.
Arguments mul_native {N} W _ _ _ _ _. Arguments square_native {N} W _ _ _ _.
Arguments int_mul {N} W _ _ _. Arguments int_square {N} W _ _. Arguments is_pure_w_modulus {N} W _ _.
Arguments int_is_zero {N} W _ _. Arguments int_is_equal {N} W _ _ _. Arguments int_assert_equal {N} W _ _ _.
Arguments int_div {N} W _ _ _. Arguments mul_small_constant {N} W _ _ _.
