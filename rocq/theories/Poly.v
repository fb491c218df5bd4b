(** Polynomials with coefficients in a module over a field, evaluated at field
    points; the only fact needed is that a polynomial with [n] coefficients
    and [n] distinct roots is zero.  Mathematical vocabulary, no repository
    code. *)
From Coq Require Import List Lia Ring Field.
From Verif Require Import Algebra.
Import ListNotations.

Section Poly.
  Variable F : Fld.
  Variable M : Mod F.
  Local Open Scope fld_scope.
  Add Field FPoly : (f_th F).

  (** coefficients in increasing degree: [a0; a1; ...] is a0 + a1 X + ... *)
  Fixpoint peval (p : list M) (x : F) : M :=
    match p with
    | [] => m0
    | a :: p' => madd a (smul x (peval p' x))
    end.

  (** Synthetic division by (X - c): quotient coefficients. *)
  Fixpoint pdiv (p : list M) (c : F) : list M :=
    match p with
    | [] => []
    | _ :: p' => match p' with [] => [] | _ => peval p' c :: pdiv p' c end
    end.

  Lemma pdiv_length p c : length (pdiv p c) = pred (length p).
  Proof.
    induction p as [|a p IH]; [reflexivity|].
    destruct p as [|b p]; [reflexivity|].
    change (pdiv (a :: b :: p) c) with (peval (b :: p) c :: pdiv (b :: p) c).
    cbn [length]. rewrite IH. reflexivity.
  Qed.

  Lemma msub_self (a : M) : madd a (mopp a) = m0.
  Proof. apply madd_opp. Qed.

  Lemma madd4 (a b c d : M) : madd (madd a b) (madd c d) = madd (madd a c) (madd b d).
  Proof.
    rewrite !madd_assoc. f_equal. rewrite <- !madd_assoc. f_equal. apply madd_comm.
  Qed.

  Lemma pdiv_spec p c x : peval p x = madd (smul (x - c) (peval (pdiv p c) x)) (peval p c).
  Proof.
    induction p as [|a p IH]; [cbn; rewrite smul_0_r, madd_0_l; reflexivity|].
    destruct p as [|b p].
    - cbn [pdiv peval]. now rewrite !smul_0_r, madd_0_l.
    - change (pdiv (a :: b :: p) c) with (peval (b :: p) c :: pdiv (b :: p) c).
      set (q := b :: p) in *. cbn [peval]. rewrite IH.
      set (R := peval q c) in *. set (Q := peval (pdiv q c) x).
      rewrite !smul_add_r, <- !smul_mul.
      rewrite (madd_comm _ _ (madd (smul (x - c) R) _)), <- !madd_assoc. f_equal.
      rewrite madd_assoc, <- smul_add_l, madd_comm. f_equal; f_equal; ring.
  Qed.

  Definition pzero (p : list M) : Prop := Forall (fun a => a = m0) p.

  Lemma pzero_eval p x : pzero p -> peval p x = m0.
  Proof.
    induction 1 as [|a p Ha Hp IH]; cbn; [reflexivity|]. rewrite Ha, IH, smul_0_r. apply madd_0_l.
  Qed.

  (** pdiv p c = 0 and p(c) = 0 imply p = 0 *)
  Lemma pdiv_zero p c : pzero (pdiv p c) -> peval p c = m0 -> pzero p.
  Proof.
    induction p as [|a p IH]; intros H1 H2; [constructor|].
    destruct p as [|b p].
    - cbn in H2. rewrite smul_0_r, madd_0_r in H2. constructor; [assumption|constructor].
    - change (pdiv (a :: b :: p) c) with (peval (b :: p) c :: pdiv (b :: p) c) in H1.
      apply Forall_cons_iff in H1. destruct H1 as [E1 E2]. assert (Z := IH E2 E1).
      constructor; [|exact Z].
      change (peval (a :: b :: p) c) with (madd a (smul c (peval (b :: p) c))) in H2.
      rewrite E1, smul_0_r, madd_0_r in H2. exact H2.
  Qed.

  Theorem roots_zero : forall (cs : list F) (p : list M),
    NoDup cs -> (length p <= length cs)%nat -> (forall c, In c cs -> peval p c = m0) -> pzero p.
  Proof.
    induction cs as [|c cs IH]; intros p ND L H.
    - destruct p; [constructor|cbn in L; lia].
    - inversion ND as [|? ? N1 N2]; subst.
      apply (pdiv_zero p c); [|apply H; now left].
      apply IH; [assumption|rewrite pdiv_length; cbn in L; lia|].
      intros d Hd. assert (E := pdiv_spec p c d).
      rewrite (H d) in E by now right. rewrite (H c) in E by now left.
      rewrite madd_0_r in E. symmetry in E. apply smul_integral in E; [assumption|].
      rewrite fsub_eq0. intros ->. contradiction.
  Qed.

  (** coefficient-wise difference *)
  Fixpoint psub (p q : list M) : list M :=
    match p with
    | [] => map mopp q
    | a :: p' => match q with [] => p | b :: q' => msub a b :: psub p' q' end
    end.

  Lemma psub_length p q : length (psub p q) = Nat.max (length p) (length q).
  Proof.
    revert q; induction p as [|a p IH]; intros [|b q]; cbn; try reflexivity.
    - now rewrite map_length.
    - f_equal. apply IH.
  Qed.

  Lemma psub_eval p q x : peval (psub p q) x = msub (peval p x) (peval q x).
  Proof.
    unfold msub.
    revert q; induction p as [|a p IH]; intros q; cbn [psub].
    - cbn [peval]. rewrite madd_0_l. induction q as [|b q IH]; cbn; [now rewrite mopp_0|].
      rewrite IH, smul_opp_r, mopp_add. reflexivity.
    - destruct q as [|b q]; cbn [peval].
      + now rewrite mopp_0, madd_0_r.
      + rewrite IH, smul_add_r, mopp_add, <- smul_opp_r. unfold msub. apply madd4.
  Qed.

  (** Two polynomials with at most n coefficients agreeing at n distinct points agree everywhere. *)
  Theorem interpolation_unique (cs : list F) (p q : list M) :
    NoDup cs -> (length p <= length cs)%nat -> (length q <= length cs)%nat ->
    (forall c, In c cs -> peval p c = peval q c) -> forall x, peval p x = peval q x.
  Proof.
    intros ND Lp Lq H x. apply (msub_eq0 F M). rewrite <- psub_eval. apply pzero_eval.
    apply (roots_zero cs); [assumption|rewrite psub_length; lia|].
    intros c Hc. rewrite psub_eval. apply (msub_eq0 F M). now apply H.
  Qed.
End Poly.
Arguments peval {F M} _ _.
