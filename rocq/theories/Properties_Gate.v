(** Properties C01-C04: the base gate of halo2-ecc-circuit-lib.

    [sat w c]: the assignment [w] satisfies every constraint emitted in [c]
    (Gate.v).  [good c]: the values written by the prover satisfy them;
    [valid c a]: [a]'s cell lies in the circuit and holds [a]'s value
    (GateProofs.v). *)
From Coq Require Import ZArith Arith Bool Lia List.
From Verif Require Import Util Algebra PField Gate GateProofs GateOps GateExtra.
Import ListNotations.
Local Open Scope fld_scope.

(** ** C01 *)
Theorem C01_add_sound (N : PF) (w : asg N) a b c r c' :
  add a b c = Some (r, c') -> sat w c' -> sat w c /\ w (av_cell r) = w (av_cell a) + w (av_cell b).
Proof. exact (add_snd N w a b c r c'). Qed.
Print Assumptions C01_add_sound.
Theorem C01_add_constant_sound (N : PF) (w : asg N) a k c r c' :
  add_constant a k c = Some (r, c') -> sat w c' -> sat w c /\ w (av_cell r) = w (av_cell a) + k.
Proof. exact (add_constant_snd N w a k c r c'). Qed.
Print Assumptions C01_add_constant_sound.
Theorem C01_sub_sound (N : PF) (w : asg N) a b c r c' :
  sub a b c = Some (r, c') -> sat w c' -> sat w c /\ w (av_cell r) = w (av_cell a) - w (av_cell b).
Proof. exact (sub_snd N w a b c r c'). Qed.
Print Assumptions C01_sub_sound.
Theorem C01_mul_sound (N : PF) (w : asg N) a b c r c' :
  mul a b c = Some (r, c') -> sat w c' -> sat w c /\ w (av_cell r) = w (av_cell a) * w (av_cell b).
Proof. exact (mul_snd N w a b c r c'). Qed.
Print Assumptions C01_mul_sound.
Theorem C01_mul_add_sound (N : PF) (w : asg N) a b d k c r c' :
  mul_add a b d k c = Some (r, c') -> sat w c' ->
  sat w c /\ w (av_cell r) = w (av_cell a) * w (av_cell b) + w (av_cell d) * k.
Proof. exact (mul_add_snd N w a b d k c r c'). Qed.
Print Assumptions C01_mul_add_sound.
Theorem C01_mul_add2_sound (N : PF) (w : asg N) a b d k e l c r c' :
  mul_add2 a b d k e l c = Some (r, c') -> sat w c' ->
  sat w c /\ w (av_cell r) = w (av_cell a) * w (av_cell b) + w (av_cell d) * k + w (av_cell e) * l.
Proof. exact (mul_add2_snd N w a b d k e l c r c'). Qed.
Print Assumptions C01_mul_add2_sound.
Theorem C01_mul_add_constant_sound (N : PF) (w : asg N) a b k c r c' :
  mul_add_constant a b k c = Some (r, c') -> sat w c' ->
  sat w c /\ w (av_cell r) = w (av_cell a) * w (av_cell b) + k.
Proof. exact (mul_add_constant_snd N w a b k c r c'). Qed.
Print Assumptions C01_mul_add_constant_sound.
Theorem C01_assign_constant_sound (N : PF) (w : asg N) v c r c' :
  assign_constant v c = Some (r, c') -> sat w c' -> sat w c /\ w (av_cell r) = v.
Proof. exact (assign_constant_snd N w v c r c'). Qed.
Print Assumptions C01_assign_constant_sound.
(** A chain of multiply-adds of any length (five-column gate). *)
Theorem C01_mul_add_with_next_line_sound (N : PF) (w : asg N) ls c r c' :
  mul_add_with_next_line ls c = Some (r, c') -> sat w c' ->
  sat w c /\ w (av_cell r) =
    fold_right (fun x s => let '(a, b, d, k) := x in w (av_cell a) * w (av_cell b) + w (av_cell d) * k + s) 0 ls.
Proof.
  intros H Hs. destruct (mul_add_with_next_line_snd N w ls c r c' H Hs) as [H1 H2]. split; [assumption|].
  rewrite H2. clear. induction ls as [|[[[a b] d] k] ls IH]; cbn; [reflexivity|now rewrite IH].
Qed.
Print Assumptions C01_mul_add_with_next_line_sound.

(** The prover's values always satisfy what is emitted, and the call never panics. *)
Theorem C01_ops_complete (N : PF) (c : ctx N) a b d k :
  good c -> valid c a -> valid c b -> valid c d ->
  let done (m : B N (aval N)) (v : N) :=
    exists r c', m c = Some (r, c') /\ ctx_le c c' /\ good c' /\ valid c' r /\ av_val r = v in
  done (add a b) (av_val a + av_val b) /\
  done (add_constant a k) (av_val a + k) /\
  done (sub a b) (av_val a - av_val b) /\
  done (mul a b) (av_val a * av_val b) /\
  done (mul_add a b d k) (av_val a * av_val b + av_val d * k) /\
  done (mul_add_constant a b k) (av_val a * av_val b + k) /\
  done (assign_constant k) k /\
  done (assign k) k.
Proof.
  intros G Ha Hb Hd done.
  exact (conj (add_cpl N c a b Ha Hb G) (conj (add_constant_cpl N c a k Ha G) (conj (sub_cpl N c a b Ha Hb G)
    (conj (mul_cpl N c a b Ha Hb G) (conj (mul_add_cpl N c a b d k Ha Hb Hd G)
    (conj (mul_add_constant_cpl N c a b k Ha Hb G) (conj (assign_constant_cpl N c k G) (assign_cpl N c k G)))))))).
Qed.
Print Assumptions C01_ops_complete.

(** Runs from the empty circuit over F_101. *)
Example C01_example :
  val2 60 50 add = Some 9%Z /\ val2 60 50 sub = Some 10%Z /\ val2 60 50 mul = Some 71%Z /\
  val2 60 50 (fun a b => mul_add a b a (e101 2)) = Some 90%Z /\
  val2 60 50 (fun a b => mul_add_with_next_line [(a, b, a, e101 2); (a, a, b, e101 3)]) = Some 2%Z.
Proof. vm_compute. repeat split; reflexivity. Qed.
Example C01_example_hyps :
  exists (a b : aval P101) (c : ctx P101), good c /\ valid c a /\ valid c b /\ toZ (av_val a) = 60%Z /\ toZ (av_val b) = 50%Z.
Proof.
  destruct (assign_cpl P101 (ctx0 P101) (e101 60) (good_ctx0 _)) as (a & c1 & _ & L1 & G1 & V1 & E1).
  destruct (assign_cpl P101 c1 (e101 50) G1) as (b & c2 & _ & L2 & G2 & V2 & E2).
  exists a, b, c2. split; [assumption|]. split; [exact (valid_le _ _ _ _ L2 V1)|]. split; [assumption|].
  rewrite E1, E2. split; reflexivity.
Qed.

(** The trait's default chaining (not used by the five-column gate) is not sound. *)
Theorem C01_mul_add_with_next_line_default_refuted :
  exists (ls : list (aval P101 * aval P101 * aval P101 * P101)) (c c' : ctx P101) r (w : asg P101),
    length ls = 2%nat /\ good c /\ Forall (valid4 P101 c) ls /\
    mul_add_with_next_line_default ls c = Some (r, c') /\ sat w c' /\
    w (av_cell r) <> msum P101 w ls.
Proof. exact mul_add_with_next_line_default_free. Qed.
Print Assumptions C01_mul_add_with_next_line_default_refuted.

(** ** C02 *)
Theorem C02_sum_sound (N : PF) (w : asg N) elems k c r c' :
  sum_with_constant elems k c = Some (r, c') -> sat w c' ->
  sat w c /\ w (av_cell r) = k + fold_right (fun x s => w (av_cell (fst x)) * snd x + s) 0 elems.
Proof.
  intros H Hs. destruct (sum_with_constant_snd N w elems k c r c' H Hs) as [H1 H2]. split; [assumption|].
  rewrite H2. f_equal. clear. induction elems as [|[a x] l IH]; cbn; [reflexivity|now rewrite IH].
Qed.
Print Assumptions C02_sum_sound.
Theorem C02_sum_complete (N : PF) (c : ctx N) elems k :
  good c -> Forall (fun x => valid c (fst x)) elems ->
  exists r c', sum_with_constant elems k c = Some (r, c') /\ ctx_le c c' /\ good c' /\ valid c' r /\
    av_val r = k + fold_right (fun x s => av_val (fst x) * snd x + s) 0 elems.
Proof.
  intros G H. destruct (sum_with_constant_cpl N c elems k H G) as (r & c' & E & L & G' & V & Hv).
  exists r, c'. split; [assumption|]. split; [assumption|]. split; [assumption|]. split; [assumption|].
  rewrite Hv. f_equal. clear. induction elems as [|[a x] l IH]; cbn; [reflexivity|now rewrite IH].
Qed.
Print Assumptions C02_sum_complete.
(** twelve terms: three chained rows and the final one *)
Example C02_example :
  match with2 3 5 (fun a b => sum_with_constant (flat_map (fun i => [(a, e101 i); (b, e101 (i + 1))]) [1; 2; 3; 4; 5; 6]%Z) (e101 7)) with
  | Some (r, c) => toZ (av_val r) = 3%Z /\ offset c = 5%nat
  | None => False
  end.
Proof. vm_compute. auto. Qed.

(** ** C03 *)
Theorem C03_assert_bit (N : PF) (w : asg N) a c r c' :
  assert_bit a c = Some (r, c') -> sat w c' -> sat w c /\ (w (av_cell a) = 0 \/ w (av_cell a) = 1).
Proof. exact (assert_bit_snd N w a c r c'). Qed.
Print Assumptions C03_assert_bit.

(** [bit b] is the field element 1 or 0 (GateExtra.v). *)
Theorem C03_truth_tables (N : PF) (w : asg N) a b (x y : bool) c r c' :
  w (av_cell a) = bit x -> w (av_cell b) = bit y -> sat w c' ->
  (and_ a b c = Some (r, c') -> sat w c /\ w (av_cell r) = bit (x && y)) /\
  (or_ a b c = Some (r, c') -> sat w c /\ w (av_cell r) = bit (x || y)) /\
  (xor_ a b c = Some (r, c') -> sat w c /\ w (av_cell r) = bit (xorb x y)) /\
  (xnor_ a b c = Some (r, c') -> sat w c /\ w (av_cell r) = bit (negb (xorb x y))) /\
  (not_ a c = Some (r, c') -> sat w c /\ w (av_cell r) = bit (negb x)).
Proof. exact (truth_tables N w a b x y c r c'). Qed.
Print Assumptions C03_truth_tables.

Theorem C03_bisec (N : PF) (w : asg N) s a b (x : bool) c r c' :
  w (av_cell s) = bit x -> sat w c' -> bisec s a b c = Some (r, c') ->
  sat w c /\ w (av_cell r) = if x then w (av_cell a) else w (av_cell b).
Proof. exact (bisec_bit N w s a b x c r c'). Qed.
Print Assumptions C03_bisec.

Theorem C03_is_zero (N : PF) (w : asg N) a c r c' :
  is_zero a c = Some (r, c') -> sat w c' ->
  sat w c /\ w (av_cell r) = if feq_dec (w (av_cell a)) 0 then 1 else 0.
Proof. exact (is_zero_bit N w a c r c'). Qed.
Print Assumptions C03_is_zero.

Theorem C03_assertions (N : PF) (w : asg N) a b k c u c' :
  sat w c' ->
  (assert_equal a b c = Some (u, c') -> sat w c /\ w (av_cell a) = w (av_cell b)) /\
  (assert_constant a k c = Some (u, c') -> sat w c /\ w (av_cell a) = k) /\
  (assert_true a c = Some (u, c') -> sat w c /\ w (av_cell a) = 1) /\
  (assert_false a c = Some (u, c') -> sat w c /\ w (av_cell a) = 0).
Proof.
  intro Hs. split; [|split; [|split]]; intro H.
  - exact (assert_equal_snd N w a b c u c' H Hs).
  - exact (assert_constant_snd N w a k c u c' H Hs).
  - exact (assert_constant_snd N w a 1 c u c' H Hs).
  - exact (assert_constant_snd N w a 0 c u c' H Hs).
Qed.
Print Assumptions C03_assertions.

(** On bits (and any selected values) the prover's values satisfy the gadgets. *)
Theorem C03_complete (N : PF) (c : ctx N) a b (x y : bool) (s d : aval N) :
  good c -> valid c a -> valid c b -> valid c s -> valid c d -> av_val a = bit x -> av_val b = bit y ->
  let done (m : B N (aval N)) (v : N) :=
    exists r c', m c = Some (r, c') /\ ctx_le c c' /\ good c' /\ valid c' r /\ av_val r = v in
  done (and_ a b) (bit (x && y)) /\ done (or_ a b) (bit (x || y)) /\
  done (xor_ a b) (bit (xorb x y)) /\ done (xnor_ a b) (bit (negb (xorb x y))) /\
  done (not_ a) (bit (negb x)) /\
  done (is_zero s) (if feq_dec (av_val s) 0 then 1 else 0) /\
  done (bisec a s d) (if x then av_val s else av_val d) /\
  (exists c', assert_bit a c = Some (tt, c') /\ good c').
Proof. exact (bits_complete N c a b x y s d). Qed.
Print Assumptions C03_complete.
(** The equality assertions are satisfiable exactly on equal values. *)
Theorem C03_assert_complete (N : PF) (c : ctx N) a b k :
  good c -> valid c a -> valid c b ->
  (av_val a = av_val b -> exists c', assert_equal a b c = Some (tt, c') /\ good c') /\
  (av_val a = k -> exists c', assert_constant a k c = Some (tt, c') /\ good c').
Proof.
  intros G Ha Hb. split; intro H.
  - destruct (assert_equal_cpl N c a b Ha Hb H G) as ([] & c' & E & _ & G' & _). exists c'. auto.
  - destruct (assert_constant_cpl N c a k Ha H G) as ([] & c' & E & _ & G' & _). exists c'. auto.
Qed.
Print Assumptions C03_assert_complete.

Example C03_example :
  val2 1 0 xor_ = Some 1%Z /\ val2 1 1 xnor_ = Some 1%Z /\ val2 1 0 or_ = Some 1%Z /\ val2 1 0 and_ = Some 0%Z /\
  val2 1 1 (fun a _ => not_ a) = Some 0%Z /\ val2 33 0 (fun a _ => is_zero a) = Some 0%Z /\
  val2 33 0 (fun _ b => is_zero b) = Some 1%Z /\ val2 1 44 (fun a b => bisec a b a) = Some 44%Z.
Proof. vm_compute. repeat split; reflexivity. Qed.

(** ** C04 *)
Theorem C04_div_unsafe (N : PF) (w : asg N) a b c r c' :
  div_unsafe a b c = Some (r, c') -> sat w c' ->
  sat w c /\ (w (av_cell b) <> 0 -> w (av_cell r) = w (av_cell a) / w (av_cell b)) /\
  (w (av_cell b) = 0 -> w (av_cell a) = 0).
Proof. exact (div_unsafe_quotient N w a b c r c'). Qed.
Print Assumptions C04_div_unsafe.

Theorem C04_div_unsafe_zero_unconstrained (N : PF) (c c' : ctx N) a b r (w0 : asg N) (v : N) :
  div_unsafe a b c = Some (r, c') ->
  (fst (av_cell a) < offset c)%nat -> (fst (av_cell b) < offset c)%nat ->
  (forall w, agree (offset c) w w0 -> sat w c) ->
  w0 (av_cell a) = 0 -> w0 (av_cell b) = 0 ->
  exists w, agree (offset c) w w0 /\ sat w c' /\ w (av_cell r) = v.
Proof. exact (div_unsafe_zero_free N c c' a b r w0 v). Qed.
Print Assumptions C04_div_unsafe_zero_unconstrained.

Theorem C04_invert (N : PF) (w : asg N) a c r i c' :
  invert a c = Some ((r, i), c') -> sat w c' ->
  sat w c /\ (w (av_cell a) = 0 -> w (av_cell r) = 1) /\
  (w (av_cell a) <> 0 -> w (av_cell r) = 0 /\ w (av_cell a) * w (av_cell i) = 1).
Proof. exact (invert_snd N w a c (r, i) c'). Qed.
Print Assumptions C04_invert.
Theorem C04_invert_unsafe (N : PF) (w : asg N) a c r c' :
  invert_unsafe a c = Some (r, c') -> sat w c' -> sat w c /\ w (av_cell a) * w (av_cell r) = 1.
Proof. exact (invert_unsafe_snd N w a c r c'). Qed.
Print Assumptions C04_invert_unsafe.

Theorem C04_complete (N : PF) (c : ctx N) a b :
  good c -> valid c a -> valid c b ->
  (av_val b <> 0 -> exists r c', div_unsafe a b c = Some (r, c') /\ good c' /\ valid c' r) /\
  (av_val b <> 0 -> exists r c', invert_unsafe b c = Some (r, c') /\ good c' /\ valid c' r) /\
  (exists r c', invert a c = Some (r, c') /\ good c' /\ valid c' (fst r) /\ valid c' (snd r)).
Proof.
  intros G Ha Hb. split; [|split].
  - intro H. destruct (div_unsafe_cpl N c a b Ha Hb H G) as (r & c' & E & _ & G' & V & _). exists r, c'. auto.
  - intro H. destruct (invert_unsafe_cpl N c b Hb H G) as (r & c' & E & _ & G' & V & _). exists r, c'. auto.
  - destruct (invert_cpl N c a Ha G) as (r & c' & E & _ & G' & V & V' & _). exists r, c'. auto.
Qed.
Print Assumptions C04_complete.
Example C04_example :
  val2 60 50 div_unsafe = Some 82%Z /\ (82 * 50 mod 101 = 60)%Z /\ val2 60 0 div_unsafe = None /\
  match with2 7 0 (fun a b => bind (invert a) (fun x => bind (invert b) (fun y => ret (x, y)))) with
  | Some ((x, y), _) => map (fun v => toZ (av_val v)) [fst x; snd x; fst y; snd y] = [0; 29; 1; 0]%Z
  | None => False
  end.
Proof. vm_compute. repeat split; reflexivity. Qed.
