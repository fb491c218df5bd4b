(** Facts about gate operations that are not fully constrained, and concrete runs. *)
From Coq Require Import ZArith Arith Lia List Bool Ring Field.
From Verif Require Import Util Algebra PField Gate GateProofs GateOps.
Import ListNotations.
Local Open Scope fld_scope.

Section Extra.
  Variable N : PF.
  Add Field NF : (f_th N).

  (** With divisor and dividend both zero, the quotient can be anything. *)
  Lemma div_unsafe_zero_free (c c' : ctx N) a b r (w0 : asg N) (v : N) :
    div_unsafe a b c = Some (r, c') ->
    (fst (av_cell a) < offset c)%nat -> (fst (av_cell b) < offset c)%nat ->
    (forall w, agree (offset c) w w0 -> sat w c) ->
    w0 (av_cell a) = 0 -> w0 (av_cell b) = 0 ->
    exists w, agree (offset c) w w0 /\ sat w c' /\ w (av_cell r) = v.
  Proof.
    intros H Ha Hb Hs Wa Wb. unfold div_unsafe in H. destruct (feq_dec (av_val b) 0); [discriminate|].
    cbn in H. injection H as <- <-.
    set (w := fun cl : cell => if Nat.eqb (fst cl) (offset c) then (if Nat.eqb (Datatypes.snd cl) 1 then v else 0) else w0 cl).
    assert (Hag : agree (offset c) w w0).
    { intros r i Hr. unfold w. cbn. destruct (Nat.eqb_spec r (offset c)); [lia|reflexivity]. }
    assert (Hold : forall cl, (fst cl < offset c)%nat -> w cl = w0 cl).
    { intros [r i] Hr. now apply Hag. }
    assert (Hnew : forall i, w (offset c, i) = if Nat.eqb i 1 then v else 0).
    { intro i. unfold w. cbn. now rewrite Nat.eqb_refl. }
    exists w. split; [assumption|]. split; [|cbn [av_cell]; now rewrite Hnew].
    unfold sat. cbn [emitted]. repeat apply Forall_cons; [| | |apply Hs; assumption].
    - cbn [holds]. unfold gate_poly. cbn -[pf fadd fmul fopp f0 f1 fsub Nat.eqb]. rewrite !Hnew. cbn. ring.
    - cbn [holds]. rewrite Hold, Hnew by assumption. exact Wb.
    - cbn [holds]. rewrite Hold, Hnew by assumption. exact Wa.
  Qed.
End Extra.

(** The empty circuit. *)
Definition ctx0 (N : PF) : ctx N := mkCtx 0 [] (fun _ => 0).
Lemma good_ctx0 N : good (ctx0 N).
Proof. intros w _. constructor. Qed.

(** The field of 101 elements as a prime field. *)
Definition P101 : PF := FpPF 101 prime_101.
Definition e101 (z : Z) : P101 := ofZ z.

(** The trait's default chaining of multiply-adds: the first accumulator cell is
    never tied to zero, so the result is not determined. *)
Lemma mul_add_with_next_line_default_free :
  exists (ls : list (aval P101 * aval P101 * aval P101 * P101)) (c c' : ctx P101) r (w : asg P101),
    length ls = 2%nat /\ good c /\ Forall (valid4 P101 c) ls /\
    mul_add_with_next_line_default ls c = Some (r, c') /\ sat w c' /\
    w (av_cell r) <> msum P101 w ls.
Proof.
  set (z := @AV P101 (0%nat, 0%nat) 0).
  set (c := mkCtx 1 [] (fun _ => 0) : ctx P101).
  set (w := fun cl : cell => if Nat.eqb (Datatypes.snd cl) 4 then 1 else 0 : P101).
  exists [(z, z, z, 0); (z, z, z, 0)], c.
  destruct (mul_add_with_next_line_default [(z, z, z, 0); (z, z, z, 0)] c) as [[r c']|] eqn:E; [|discriminate].
  exists c', r, w. split; [reflexivity|]. split; [intros ? _; constructor|]. split.
  { repeat apply Forall_cons; try apply Forall_nil; repeat split; cbn; lia. }
  split; [reflexivity|]. cbn -[gate_poly P101] in E. injection E as <- <-. split.
  - unfold sat. cbn [emitted]. repeat apply Forall_cons; try apply Forall_nil; cbn [holds]; reflexivity.
  - cbn. discriminate.
Qed.

Definition is_ok {A B} (o : option (A * B)) : bool := match o with Some _ => true | None => false end.
(** A small circuit: two inputs and the operation under test. *)
Definition with2 {A} (x y : Z) (f : aval P101 -> aval P101 -> B P101 A) : option (A * ctx P101) :=
  (bind (assign (e101 x)) (fun a => bind (assign (e101 y)) (fun b => f a b))) (ctx0 P101).
Definition val2 (x y : Z) (f : aval P101 -> aval P101 -> B P101 (aval P101)) : option Z :=
  match with2 x y f with Some (r, _) => Some (toZ (av_val r)) | None => None end.

(** the field element of a truth value *)
Definition bit {N : PF} (b : bool) : N := if b then 1 else 0.
Section Bits.
  Variable N : PF.
  Add Field NFb : (f_th N).
  Implicit Types (w : asg N) (c : ctx N).
  Lemma bit_eq (x y : bool) : (bit x : N) = bit y -> x = y.
  Proof.
    destruct x, y; cbn; intro H; try reflexivity; exfalso; [apply (f1_neq_0 N); exact H|apply (f1_neq_0 N); now symmetry].
  Qed.
  Lemma truth_tables w a b (x y : bool) c r c' :
    w (av_cell a) = bit x -> w (av_cell b) = bit y -> sat w c' ->
    (and_ a b c = Some (r, c') -> sat w c /\ w (av_cell r) = bit (x && y)) /\
    (or_ a b c = Some (r, c') -> sat w c /\ w (av_cell r) = bit (x || y)) /\
    (xor_ a b c = Some (r, c') -> sat w c /\ w (av_cell r) = bit (xorb x y)) /\
    (xnor_ a b c = Some (r, c') -> sat w c /\ w (av_cell r) = bit (negb (xorb x y))) /\
    (not_ a c = Some (r, c') -> sat w c /\ w (av_cell r) = bit (negb x)).
  Proof.
    intros Ha Hb Hs. split; [|split; [|split; [|split]]]; intro H.
    - destruct (mul_snd N w _ _ _ _ _ H Hs) as [Hc ->]. split; [assumption|].
      rewrite Ha, Hb. destruct x, y; cbn; ring.
    - destruct (or_snd N w _ _ _ _ _ H Hs) as [Hc ->]. split; [assumption|].
      rewrite Ha, Hb. destruct x, y; cbn; ring.
    - destruct (xor_snd N w _ _ _ _ _ H Hs) as [Hc ->]. split; [assumption|].
      rewrite Ha, Hb. destruct x, y; cbn; ring.
    - destruct (xnor_snd N w _ _ _ _ _ H Hs) as [Hc ->]. split; [assumption|].
      rewrite Ha, Hb. destruct x, y; cbn; ring.
    - destruct (not_snd N w _ _ _ _ H Hs) as [Hc ->]. split; [assumption|].
      rewrite Ha. destruct x; cbn; ring.
  Qed.
  Lemma bisec_bit w s a b (x : bool) c r c' :
    w (av_cell s) = bit x -> sat w c' -> bisec s a b c = Some (r, c') ->
    sat w c /\ w (av_cell r) = if x then w (av_cell a) else w (av_cell b).
  Proof.
    intros Hx Hs H. destruct (bisec_snd N w _ _ _ _ _ _ H Hs) as [Hc ->]. split; [assumption|].
    rewrite Hx. destruct x; cbn; ring.
  Qed.
  Lemma is_zero_bit w a c r c' :
    is_zero a c = Some (r, c') -> sat w c' ->
    sat w c /\ w (av_cell r) = if feq_dec (w (av_cell a)) 0 then 1 else 0.
  Proof.
    intros H Hs. destruct (is_zero_snd N w _ _ _ _ H Hs) as [Hc [H1 H2]]. split; [assumption|].
    destruct (feq_dec (w (av_cell a)) 0); auto.
  Qed.
  Lemma bits_complete c a b (x y : bool) (s d : aval N) :
    good c -> valid c a -> valid c b -> valid c s -> valid c d -> av_val a = bit x -> av_val b = bit y ->
    let done (m : B N (aval N)) (v : N) :=
      exists r c', m c = Some (r, c') /\ ctx_le c c' /\ good c' /\ valid c' r /\ av_val r = v in
    done (and_ a b) (bit (x && y)) /\ done (or_ a b) (bit (x || y)) /\
    done (xor_ a b) (bit (xorb x y)) /\ done (xnor_ a b) (bit (negb (xorb x y))) /\
    done (not_ a) (bit (negb x)) /\
    done (is_zero s) (if feq_dec (av_val s) 0 then 1 else 0) /\
    done (bisec a s d) (if x then av_val s else av_val d) /\
    (exists c', assert_bit a c = Some (tt, c') /\ good c').
  Proof.
    intros G Ha Hb Hs Hd Ex Ey done.
    split; [|split; [|split; [|split; [|split; [|split; [|split]]]]]].
    - destruct (mul_cpl N c a b Ha Hb G) as (r & c' & E & L & G' & V & Hv). exists r, c'.
      split; [exact E|]. repeat (split; [assumption|]). rewrite Hv, Ex, Ey. destruct x, y; cbn; ring.
    - destruct (or_cpl N c a b Ha Hb G) as (r & c' & E & L & G' & V & Hv). exists r, c'.
      split; [exact E|]. repeat (split; [assumption|]). rewrite Hv, Ex, Ey. destruct x, y; cbn; ring.
    - destruct (xor_cpl N c a b Ha Hb G) as (r & c' & E & L & G' & V & Hv). exists r, c'.
      split; [exact E|]. repeat (split; [assumption|]). rewrite Hv, Ex, Ey. destruct x, y; cbn; ring.
    - destruct (xnor_cpl N c a b Ha Hb G) as (r & c' & E & L & G' & V & Hv). exists r, c'.
      split; [exact E|]. repeat (split; [assumption|]). rewrite Hv, Ex, Ey. destruct x, y; cbn; ring.
    - destruct (not_cpl N c a Ha G) as (r & c' & E & L & G' & V & Hv). exists r, c'.
      split; [exact E|]. repeat (split; [assumption|]). rewrite Hv, Ex. destruct x; cbn; ring.
    - exact (is_zero_cpl N c s Hs G).
    - destruct (bisec_cpl N c a s d Ha Hs Hd G) as (r & c' & E & L & G' & V & Hv). exists r, c'.
      split; [exact E|]. repeat (split; [assumption|]). rewrite Hv, Ex. destruct x; cbn; ring.
    - destruct (assert_bit_cpl N c a Ha) as ([] & c' & E & _ & G' & _); auto.
      + rewrite Ex. destruct x; [now right|now left].
      + exists c'. auto.
  Qed.
  Lemma div_unsafe_quotient w a b c r c' :
    div_unsafe a b c = Some (r, c') -> sat w c' ->
    sat w c /\ (w (av_cell b) <> 0 -> w (av_cell r) = w (av_cell a) / w (av_cell b)) /\
    (w (av_cell b) = 0 -> w (av_cell a) = 0).
  Proof.
    intros H Hs. destruct (div_unsafe_snd N w _ _ _ _ _ H Hs) as [Hc H1]; clear H; rename H1 into H. split; [assumption|]. split.
    - intro Hb. rewrite <- H. field. assumption.
    - intro Hb. rewrite <- H, Hb. ring.
  Qed.
End Bits.
