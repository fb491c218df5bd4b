(** Deciding whether a concrete assignment satisfies a concrete circuit; used for
    examples and counterexamples only. *)
From Coq Require Import ZArith Arith List Bool Lia.
From Coq Require Import Field_theory Ring_theory.
From Verif Require Import Util Algebra PField Gate GateProofs GateExtra Integer Bn254 Bn254Prime.
Import ListNotations.

Definition feqbN {N : PF} (x y : N) : bool := if feq_dec x y then true else false.
(** The gate polynomial computed over the integers: one reduction at the end. *)
Definition zw {N : PF} (w : asg N) (c : cell) : Z := toZ (w c).
Definition zterm {N : PF} (c : N) (v : Z) : Z := match toZ c with Z0 => 0%Z | z => (z * v)%Z end.
Fixpoint zdot {N : PF} (w : asg N) (r i : nat) (coeffs : list N) : Z :=
  match coeffs with [] => 0%Z | c :: l => (zterm c (zw w (r, i)) + zdot w r (S i) l)%Z end.
Fixpoint zmuls {N : PF} (w : asg N) (r i : nat) (coeffs : list N) : Z :=
  match coeffs with
  | [] => 0%Z
  | c :: l => (zterm c (zw w (r, (i * 2)%nat) * zw w (r, (i * 2 + 1)%nat)) + zmuls w r (S i) l)%Z
  end.
Definition zrow {N : PF} (w : asg N) (r : nat) (g : grow N) : Z :=
  (toZ (g_const g) + zterm (g_next g) (zw w (S r, (VAR_COLUMNS - 1)%nat)) + zdot w r 0 (g_coeff g) + zmuls w r 0 (g_mul g))%Z.
Definition holdsb {N : PF} (w : asg N) (c : constr N) : bool :=
  match c with
  | CRow r g => (zrow w r g mod pf_n N =? 0)%Z
  | CCopy a b => (zw w a =? zw w b)%Z
  | CRange c bits => (zw w c <? 2 ^ Z.of_nat bits)%Z
  end.
Lemma zterm_ok {N : PF} (c : N) v : ofZ (zterm c v) = fmul (ofZ v) c.
Proof.
  assert (E : zterm c v = (toZ c * v)%Z) by (unfold zterm; destruct (toZ c); reflexivity).
  rewrite E, (ofZ_mul N), (ofZ_toZ N). apply (F_R (f_th N)).(Rmul_comm).
Qed.
Lemma zdot_ok {N : PF} (w : asg N) r l : forall i, ofZ (zdot w r i l) = dot w r i l.
Proof. induction l as [|c l IH]; intro i; cbn [zdot dot]; [apply (ofZ_0 N)|]. rewrite (ofZ_add N), zterm_ok, IH. unfold zw. now rewrite (ofZ_toZ N). Qed.
Lemma zmuls_ok {N : PF} (w : asg N) r l : forall i, ofZ (zmuls w r i l) = muls w r i l.
Proof. induction l as [|c l IH]; intro i; cbn [zmuls muls]; [apply (ofZ_0 N)|]. rewrite (ofZ_add N), zterm_ok, IH, (ofZ_mul N). unfold zw. now rewrite !(ofZ_toZ N). Qed.
Lemma zrow_ok {N : PF} (w : asg N) r g : ofZ (zrow w r g) = gate_poly w r g.
Proof. unfold zrow, gate_poly. rewrite !(ofZ_add N), zterm_ok, zdot_ok, zmuls_ok. unfold zw. now rewrite !(ofZ_toZ N). Qed.
Definition satb {N : PF} (w : asg N) (c : ctx N) : bool := forallb (holdsb w) (emitted c).
Lemma satb_sat {N : PF} (w : asg N) c : satb w c = true -> sat w c.
Proof.
  intro H. unfold satb in H. unfold sat. rewrite forallb_forall in H. apply Forall_forall. intros x Hx. specialize (H x Hx).
  destruct x; cbn in *; unfold zw in H.
  - apply Z.eqb_eq in H. rewrite <- zrow_ok, <- (ofZ_0 N). apply (toZ_inj N). rewrite !(toZ_ofZ N), H. now rewrite Z.mod_0_l by (pose proof (pf_pos N); lia).
  - apply Z.eqb_eq in H. now apply (toZ_inj N).
  - now apply Z.ltb_lt.
Qed.

(** [m] runs from the empty circuit, the prover's values satisfy it, and [t] holds. *)
Definition runs {N : PF} {A} (m : B N A) (t : asg N -> A -> bool) : bool :=
  match m (ctx0 N) with Some (r, c) => satb (adv c) c && t (adv c) r | None => false end.
Lemma runs_ok {N : PF} {A} (m : B N A) t : runs m t = true ->
  exists r c, m (ctx0 N) = Some (r, c) /\ sat (adv c) c /\ t (adv c) r = true.
Proof.
  unfold runs. destruct (m (ctx0 N)) as [[r c]|]; [|discriminate]. intro H. apply andb_prop in H. destruct H as [H1 H2].
  exists r, c. split; [reflexivity|]. split; [now apply satb_sat|assumption].
Qed.
(** The values written while running [m'] satisfy the circuit of [m], with [t]. *)
Definition fools {N : PF} {A A'} (m : B N A) (m' : B N A') (t : asg N -> A -> bool) : bool :=
  match m (ctx0 N), m' (ctx0 N) with Some (r, c), Some (_, c') => satb (adv c') c && t (adv c') r | _, _ => false end.
Lemma fools_ok {N : PF} {A A'} (m : B N A) (m' : B N A') t : fools m m' t = true ->
  exists r c w, m (ctx0 N) = Some (r, c) /\ sat w c /\ t w r = true.
Proof.
  unfold fools. destruct (m (ctx0 N)) as [[r c]|]; [|discriminate]. destruct (m' (ctx0 N)) as [[r' c']|]; [|discriminate].
  intro H. apply andb_prop in H. destruct H as [H1 H2].
  exists r, c, (adv c'). split; [reflexivity|]. split; [now apply satb_sat|assumption].
Qed.

(** The same for two steps, the second of which is the one of interest. *)
Lemma runs2 {N : PF} {A A'} (m : B N A) (k : A -> B N A') (t : asg N -> A * A' -> bool) :
  runs (a <- m ;; r <- k a ;; ret (a, r)) t = true ->
  exists a c r c', m (ctx0 N) = Some (a, c) /\ k a c = Some (r, c') /\ sat (adv c') c' /\ t (adv c') (a, r) = true.
Proof.
  intro H. apply runs_ok in H. destruct H as (r & c' & H1 & H2 & H3). unfold bind in H1.
  destruct (m (ctx0 N)) as [[a c]|]; [|discriminate]. destruct (k a c) as [[r' c1]|] eqn:E; [|discriminate].
  unfold ret in H1. injection H1 as <- <-. exists a, c, r', c1. repeat split; assumption.
Qed.
Lemma fools2 {N : PF} {A A' A''} (m : B N A) (k : A -> B N A') (m' : B N A'') (t : asg N -> A * A' -> bool) :
  fools (a <- m ;; r <- k a ;; ret (a, r)) m' t = true ->
  exists a c r c' w, m (ctx0 N) = Some (a, c) /\ k a c = Some (r, c') /\ sat w c' /\ t w (a, r) = true.
Proof.
  intro H. apply fools_ok in H. destruct H as (r & c' & w & H1 & H2 & H3). unfold bind in H1.
  destruct (m (ctx0 N)) as [[a c]|]; [|discriminate]. destruct (k a c) as [[r' c1]|] eqn:E; [|discriminate].
  unfold ret in H1. injection H1 as <- <-. exists a, c, r', c1, w. repeat split; assumption.
Qed.
Lemma feqbN_ok {N : PF} (x y : N) : feqbN x y = true -> x = y.
Proof. unfold feqbN. now destruct feq_dec. Qed.
Lemma feqbN_no {N : PF} (x y : N) : feqbN x y = false -> x <> y.
Proof. unfold feqbN. now destruct feq_dec. Qed.
(** [m] aborts. *)
Definition aborts {N : PF} {A} (m : B N A) : bool := match m (ctx0 N) with Some _ => false | None => true end.
Lemma aborts_ok {N : PF} {A} (m : B N A) : aborts m = true -> m (ctx0 N) = None.
Proof. unfold aborts. now destruct (m (ctx0 N)). Qed.

(** A prover that writes the limbs of an arbitrary integer where [assign_w] would
    write those of a canonical representative. *)
Definition assign_limbs_of (z : Z) : B Fr (aint Fr) :=
  x3 <- assign_w_ceil_leading_limb Fr Fq (ofZ (bn_limb 3 z)) ;;
  x2 <- assign_nonleading_limb (ofZ (bn_limb 2 z)) ;;
  x1 <- assign_nonleading_limb (ofZ (bn_limb 1 z)) ;;
  x0 <- assign_nonleading_limb (ofZ (bn_limb 0 z)) ;;
  ret (AI x0 x1 x2 x3 None 0).

Definition q (z : Z) : Fq := ofZ z.
