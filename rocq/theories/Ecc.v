(** Elliptic-curve chip of halo2-ecc-circuit-lib: chips/ecc_chip.rs (trait
    [EccChipOps]) and chips/native_ecc_chip.rs ([NativeEccChip], the instance whose
    scalars are native field elements).

    [N] is the native field ([C::ScalarExt]), [W] the coordinate field ([C::Base]).
    Functions taking [&mut AssignedPoint] return the updated point when the caller
    can observe it.  The "shape mode" shortcut of [shamir]
    (ecc_chip.rs:197-205) is in Measure.v. *)
From Coq Require Import ZArith Arith NArith Lia List Bool.
From Verif Require Import Util Algebra PField Gate Integer Curve.
Import ListNotations.

Section Chip.
  Variables N W : PF.
  Local Open Scope fld_scope.
  Local Notation aval := (aval N).
  Local Notation aint := (aint N).
  Local Notation B := (B N).

  (** ecc_chip.rs:11-21, [AssignedCurvature] *)
  Record acurv := AC { cv_v : aint; cv_z : aval }.
  (** ecc_chip.rs:23-58, [AssignedPoint] *)
  Record apoint := AP { pt_x : aint; pt_y : aint; pt_z : aval; pt_c : option acurv }.

  (** [C::b()] of bn256 G1 (external crate halo2curves) *)
  Definition curve_b : W := ofZ 3.
  (** [to_affine().coordinates()] with 0 for the identity, e.g. ecc_chip.rs:425-427
      (external crate: the identity has no coordinates). *)
  Definition coords (P : point W) : W * W * N :=
    match P with Inf => (0, 0, 1) | Aff x y => (x, y, 0) end.

  (** ecc_chip.rs:280-307; returns (curvature, a) *)
  Definition curvature (a : apoint) : B (acurv * apoint) :=
    match pt_c a with
    | Some c => ret (c, a)
    | None =>
        xa <- int_square W (pt_x a) ;;
        let '(x_square, x) := xa in
        num <- mul_small_constant W x_square 3 ;;
        den <- mul_small_constant W (pt_y a) 2 ;;
        zv <- int_div W (fst num) (fst den) ;;
        let '(z, v, _, _) := zv in
        let c := AC v z in
        ret (c, AP x (snd den) (pt_z a) (Some c))
    end.

  (** ecc_chip.rs:308-321 *)
  Definition bisec_curvature (cond : aval) (a b : acurv) : B acurv :=
    v <- int_bisec cond (cv_v a) (cv_v b) ;;
    z <- bisec cond (cv_z a) (cv_z b) ;;
    ret (AC v z).

  (** ecc_chip.rs:322-336 *)
  Definition bisec_point (cond : aval) (a b : apoint) : B apoint :=
    x <- int_bisec cond (pt_x a) (pt_x b) ;;
    y <- int_bisec cond (pt_y a) (pt_y b) ;;
    z <- bisec cond (pt_z a) (pt_z b) ;;
    ret (AP x y z None).

  (** ecc_chip.rs:337-355; the callers never look at [a] and [b] again. *)
  Definition bisec_point_with_curvature (cond : aval) (a b : apoint) : B apoint :=
    x <- int_bisec cond (pt_x a) (pt_x b) ;;
    y <- int_bisec cond (pt_y a) (pt_y b) ;;
    z <- bisec cond (pt_z a) (pt_z b) ;;
    ca <- curvature a ;;
    cb <- curvature b ;;
    c <- bisec_curvature cond (fst ca) (fst cb) ;;
    ret (AP x y z (Some c)).

  (** ecc_chip.rs:356-382; [lambda] is a local value of every caller. *)
  Definition lambda_to_point (lambda : acurv) (a b : apoint) : B apoint :=
    ll <- int_square W (cv_v lambda) ;;
    let '(l_square, l) := ll in
    t <- int_sub W l_square (pt_x a) ;;
    cx <- int_sub W t (pt_x b) ;;
    t <- int_sub W (pt_x a) cx ;;
    tl <- int_mul W t l ;;
    let '(t, _, _) := tl in
    cy <- int_sub W t (pt_y a) ;;
    ret (AP cx cy (cv_z lambda) None).

  (** ecc_chip.rs:383-408; returns (sum, a) *)
  Definition ecc_add (a b : apoint) : B (apoint * apoint) :=
    diff_x <- int_sub W (pt_x a) (pt_x b) ;;
    diff_y <- int_sub W (pt_y a) (pt_y b) ;;
    xt <- int_div W diff_y diff_x ;;
    let '(x_eq, tangent, diff_y, _) := xt in
    ye <- int_is_zero W diff_y ;;
    eq <- and_ x_eq (fst ye) ;;
    ca <- curvature a ;;
    let '(c, a) := ca in
    lambda <- bisec_curvature eq c (AC tangent x_eq) ;;
    p <- lambda_to_point lambda a b ;;
    p <- bisec_point (pt_z a) b p ;;
    p <- bisec_point (pt_z b) a p ;;
    ret (p, a).

  (** ecc_chip.rs:409-419; returns (double, a) *)
  Definition ecc_double (a : apoint) : B (apoint * apoint) :=
    ca <- curvature a ;;
    let '(c, a) := ca in
    p <- lambda_to_point c a a ;;
    z <- bisec (pt_z a) (pt_z a) (pt_z p) ;;
    ret (AP (pt_x p) (pt_y p) z (pt_c p), a).

  (** ecc_chip.rs:420-437 *)
  Definition assign_constant_point (P : point W) : B apoint :=
    let '(x, y, z) := coords P in
    x <- int_assign_constant x ;;
    y <- int_assign_constant y ;;
    z <- assign_constant z ;;
    ret (AP x y z None).

  (** ecc_chip.rs:438-472: the cached curvature is [y/x] (0 when [x = 0]). *)
  Definition assign_constant_point_with_curvature (P : point W) : B apoint :=
    let '(x, y, z) := coords P in
    cv <- int_assign_constant (y * (if feq_dec x 0 then 0 else finv x)) ;;
    cz <- assign_constant (if feq_dec x 0 then 1 else 0) ;;
    x <- int_assign_constant x ;;
    y <- int_assign_constant y ;;
    z <- assign_constant z ;;
    ret (AP x y z (Some (AC cv cz))).

  (** ecc_chip.rs:473-500 *)
  Definition assign_point (P : point W) : B apoint :=
    let '(x, y, z) := coords P in
    x <- assign_w x ;;
    y <- assign_w y ;;
    z <- assign z ;;
    b <- int_assign_constant curve_b ;;
    yy <- int_square W y ;;
    let '(y2, y) := yy in
    xx <- int_square W x ;;
    let '(x2, x) := xx in
    xxx <- int_mul W x2 x ;;
    let '(x3, _, x) := xxx in
    right <- int_add W x3 b ;;
    eq <- int_is_equal W y2 right ;;
    eq_or_identity <- or_ eq z ;;
    assert_true eq_or_identity ;;;
    ret (AP x y z None).

  (** ecc_chip.rs:517-527 *)
  Definition assign_identity : B apoint :=
    zero <- int_assign_constant (0 : W) ;;
    one <- assign_constant 1 ;;
    ret (AP zero zero one (Some (AC zero one))).

  (** ecc_chip.rs:528-548 *)
  Definition ecc_assert_equal (a b : apoint) : B unit :=
    eq_x <- int_is_equal W (pt_x a) (pt_x b) ;;
    eq_y <- int_is_equal W (pt_y a) (pt_y b) ;;
    eq_z <- xnor_ eq_x eq_y ;;
    eq_xy <- and_ eq_x eq_y ;;
    eq_xyz <- and_ eq_xy eq_z ;;
    is_both_identity <- and_ (pt_z a) (pt_z b) ;;
    eq <- or_ eq_xyz is_both_identity ;;
    assert_constant eq 1.

  (** ecc_chip.rs:549-559 *)
  Definition ecc_neg (a : apoint) : B apoint :=
    y <- int_neg W (pt_y a) ;;
    ret (AP (pt_x a) y (pt_z a) None).

  (** ecc_chip.rs:560-568; returns (difference, a) *)
  Definition ecc_sub (a b : apoint) : B (apoint * apoint) :=
    nb <- ecc_neg b ;;
    ecc_add a nb.

  (** ecc_chip.rs:569-580; returns (result, a) *)
  Definition ecc_reduce (a : apoint) : B (apoint * apoint) :=
    x <- int_reduce W (pt_x a) ;;
    y <- int_reduce W (pt_y a) ;;
    let a := AP x y (pt_z a) (pt_c a) in
    identity <- assign_identity ;;
    p <- bisec_point (pt_z a) identity a ;;
    ret (p, a).

  (** ** Scalar decomposition *)

  (** native_ecc_chip.rs:21-34 *)
  Definition decompose_bits (ws : nat) (s : Z) : list N * Z :=
    (map (fun i => if Z.testbit s (Z.of_nat i) then 1 else 0) (seq 0 ws), Z.shiftr s (Z.of_nat ws)).
  (** one line of [decompose_scalar], native_ecc_chip.rs:57-80, 84-103, 106-123:
      the bits, the running value in the last column *)
  Definition decompose_line (ws : nat) (bits : list N) (last : vschema N) (next : N) : B (list aval) :=
    let ps := map (fun iv => (VU (snd iv), ofZ (2 ^ Z.of_nat (fst iv)))) (combine (seq 0 ws) bits) in
    cells <- one_line_with_last_base ps (last, - (1)) 0 [] next ;;
    ret (firstn ws cells).
  (** native_ecc_chip.rs:82-104 *)
  Fixpoint decompose_mid (ws n : nat) (s : Z) {struct n} : B (list (list aval) * Z) :=
    match n with
    | O => ret ([], s)
    | S n =>
        let '(bits, s') := decompose_bits ws s in
        l <- decompose_line ws bits (VU (ofZ s)) (ofZ (2 ^ Z.of_nat ws)) ;;
        r <- decompose_mid ws n s' ;;
        ret (l :: fst r, snd r)
    end.
  (** native_ecc_chip.rs:50-51 *)
  Definition num_windows (ws : nat) : nat := ((Z.to_nat (nbits (pf_n N)) - 1 + ws) / ws)%nat.
  (** native_ecc_chip.rs:42-132; the windows, most significant first, each with its
      bits in little-endian order. *)
  Definition decompose_scalar (ws : nat) (s : aval) : B (list (list aval)) :=
    let '(bits, s1) := decompose_bits ws (toZ (av_val s)) in
    first <- decompose_line ws bits (VA s) (ofZ (2 ^ Z.of_nat ws)) ;;
    mid <- decompose_mid ws (num_windows ws - 2) s1 ;;
    let '(lines, s2) := mid in
    let '(bits, _) := decompose_bits ws s2 in
    last <- decompose_line ws bits (VU (ofZ s2)) 0 ;;
    let windows := rev (first :: lines ++ [last]) in
    bmap (bmap assert_bit) windows ;;;
    ret windows.

  (** ** Scalar multiplication *)

  (** ecc_chip.rs:70 *)
  Definition CONFIG_WINDOW_SIZE : nat := 4.

  (** ecc_chip.rs:97-100: candidates [prev], [prev + a], ... ([n] additions); every
      addition may fill the curvature cache of its first argument. *)
  Fixpoint build_candidates (n : nat) (prev a : apoint) {struct n} : B (list apoint) :=
    match n with
    | O => ret [prev]
    | S n =>
        r <- ecc_add prev a ;;
        let '(ai, prev) := r in
        rest <- build_candidates n ai a ;;
        ret (prev :: rest)
    end.
  (** ecc_chip.rs:156-162: the same, filling the cache of every sum. *)
  Fixpoint build_candidates_with_curvature (n : nat) (prev a : apoint) {struct n} : B (list apoint) :=
    match n with
    | O => ret [prev]
    | S n =>
        r <- ecc_add prev a ;;
        let '(ai, prev) := r in
        ca <- curvature ai ;;
        rest <- build_candidates_with_curvature n (snd ca) a ;;
        ret (prev :: rest)
    end.

  (** ecc_chip.rs:107-118: one bit halves the candidates *)
  Fixpoint halve (bit : aval) (l : list apoint) {struct l} : B (list apoint) :=
    match l with
    | a0 :: a1 :: l =>
        c <- bisec_point_with_curvature bit a1 a0 ;;
        cs <- halve bit l ;;
        ret (c :: cs)
    | _ => ret []
    end.
  (** ecc_chip.rs:102-122, 166-187, [pick_candidate] *)
  Fixpoint pick_candidate (cands : list apoint) (bits : list aval) {struct bits} : B apoint :=
    match bits with
    | [] => at_ cands 0
    | bit :: bits => cs <- halve bit cands ;; pick_candidate cs bits
    end.

  (** ecc_chip.rs:127-129, 234-236 *)
  Fixpoint repeat_double (n : nat) (acc : apoint) {struct n} : B apoint :=
    match n with
    | O => ret acc
    | S n => d <- ecc_double acc ;; repeat_double n (fst d)
    end.

  (** ecc_chip.rs:126-133 *)
  Fixpoint mul_loop (cands : list apoint) (windows : list (list aval)) (acc : apoint) {struct windows} : B apoint :=
    match windows with
    | [] => ret acc
    | bits :: windows =>
        acc <- repeat_double CONFIG_WINDOW_SIZE acc ;;
        curr <- pick_candidate cands bits ;;
        s <- ecc_add curr acc ;;
        mul_loop cands windows (fst s)
    end.
  (** ecc_chip.rs:86-138; [a] itself is not changed. *)
  Definition ecc_mul (a : apoint) (s : aval) : B apoint :=
    windows <- decompose_scalar CONFIG_WINDOW_SIZE s ;;
    identity <- assign_identity ;;
    rest <- build_candidates 14 a a ;;
    let cands := identity :: rest in
    match windows with
    | [] => panic
    | first :: pendings =>
        acc <- pick_candidate cands first ;;
        mul_loop cands pendings acc
    end.

  (** ecc_chip.rs:207-221: the sum over the points of the candidates picked by
      window [wi] *)
  Fixpoint shamir_inner (ps : list (list apoint * list (list aval))) (wi : nat) (acc : option apoint) {struct ps} : B apoint :=
    match ps with
    | [] => match acc with Some p => ret p | None => panic end
    | (cands, windows) :: ps =>
        bits <- at_ windows wi ;;
        ci <- pick_candidate cands bits ;;
        match acc with
        | None => shamir_inner ps wi (Some ci)
        | Some p => s <- ecc_add ci p ;; shamir_inner ps wi (Some (fst s))
        end
    end.
  (** ecc_chip.rs:189-243 *)
  Fixpoint shamir_loop (ps : list (list apoint * list (list aval))) (wis : list nat) (acc : option apoint) {struct wis} : B apoint :=
    match wis with
    | [] => match acc with Some p => ret p | None => panic end
    | wi :: wis =>
        inner <- shamir_inner ps wi None ;;
        match acc with
        | None => shamir_loop ps wis (Some inner)
        | Some p => p <- repeat_double CONFIG_WINDOW_SIZE p ;;
                    s <- ecc_add inner p ;;
                    shamir_loop ps wis (Some (fst s))
        end
    end.
  (** ecc_chip.rs:139-244; panics for no points or different lengths. *)
  Definition shamir (points : list apoint) (scalars : list aval) : B apoint :=
    guard (length points =? length scalars)%nat ;;;
    windows <- bmap (decompose_scalar CONFIG_WINDOW_SIZE) scalars ;;
    identity <- assign_identity ;;
    cands <- bmap (fun a => rest <- build_candidates_with_curvature 14 a a ;; ret (identity :: rest)) points ;;
    w0 <- at_ windows 0 ;;
    shamir_loop (combine cands windows) (seq 0 (length w0)) None.

  (** ecc_chip.rs:254-276, the loop of [constant_mul]; [base + base] etc. are native
      curve operations (external crate: the group law, Curve.v). *)
  Fixpoint constant_mul_loop (identity : apoint) (windows : list (list aval)) (base : point W) (acc : option apoint) {struct windows} : B apoint :=
    match windows with
    | [] => match acc with Some p => ret p | None => panic end
    | bits :: windows =>
        c01 <- assign_constant_point_with_curvature (padd base base) ;;
        c10 <- assign_constant_point_with_curvature base ;;
        c11 <- assign_constant_point_with_curvature (padd (padd base base) base) ;;
        b0 <- at_ bits 0 ;;
        c0 <- bisec_point_with_curvature b0 c10 identity ;;
        c1 <- bisec_point_with_curvature b0 c11 c01 ;;
        b1 <- at_ bits 1 ;;
        slot <- bisec_point_with_curvature b1 c1 c0 ;;
        let base' := padd (padd (padd base base) base) base in
        match acc with
        | None => constant_mul_loop identity windows base' (Some slot)
        | Some p => s <- ecc_add slot p ;; constant_mul_loop identity windows base' (Some (fst s))
        end
    end.
  (** ecc_chip.rs:245-279 *)
  Definition constant_mul (P : point W) (s : aval) : B apoint :=
    windows <- decompose_scalar 2 s ;;
    identity <- assign_constant_point_with_curvature Inf ;;
    constant_mul_loop identity (rev windows) P None.
End Chip.

Arguments AC {N} _ _. Arguments cv_v {N} _. Arguments cv_z {N} _.
Arguments AP {N} _ _ _ _. Arguments pt_x {N} _. Arguments pt_y {N} _. Arguments pt_z {N} _. Arguments pt_c {N} _.
Arguments coords {N W} _. Arguments curvature {N} W _ _. Arguments bisec_curvature {N} _ _ _ _.
Arguments bisec_point {N} _ _ _ _. Arguments bisec_point_with_curvature {N} W _ _ _ _.
Arguments lambda_to_point {N} W _ _ _ _. Arguments ecc_add {N} W _ _ _. Arguments ecc_double {N} W _ _.
Arguments assign_constant_point {N W} _ _. Arguments assign_constant_point_with_curvature {N W} _ _.
Arguments assign_point {N W} _ _. Arguments assign_identity {N} W _. Arguments ecc_assert_equal {N} W _ _ _.
Arguments ecc_neg {N} W _ _. Arguments ecc_sub {N} W _ _ _. Arguments ecc_reduce {N} W _ _.
Arguments decompose_bits {N} _ _. Arguments decompose_line {N} _ _ _ _ _. Arguments decompose_mid {N} _ _ _ _.
Arguments decompose_scalar {N} _ _ _. Arguments build_candidates {N} W _ _ _ _.
Arguments build_candidates_with_curvature {N} W _ _ _ _. Arguments halve {N} W _ _ _.
Arguments pick_candidate {N} W _ _ _. Arguments repeat_double {N} W _ _ _. Arguments mul_loop {N} W _ _ _ _.
Arguments ecc_mul {N} W _ _ _. Arguments shamir_inner {N} W _ _ _ _. Arguments shamir_loop {N} W _ _ _ _.
Arguments shamir {N} W _ _ _. Arguments constant_mul_loop {N} {W} _ _ _ _ _. Arguments constant_mul {N} {W} _ _ _.
