(** Relating two layouts of the same circuit: the rules.  [RC] relates the contexts of the two
    layouts, [RA] their cells; everything above the rows of the gates preserves both, whatever
    the values of the cells are. *)
From Coq Require Import ZArith Arith NArith Lia List Bool.
From Verif Require Import Util Algebra PField Gate GateExtra Integer Curve Ecc Poseidon.
Import ListNotations.

(** The widths with which the circuit looks cells up: 17 bits, and for the leading chunk those
    of one of the three leading tables (range_gate.rs:203-233). *)
Definition configured (N W : PF) (b : nat) (l : option nat) : Prop :=
  b = COMMON_RANGE_BITS /\ match l with None => True | Some t => t = w_table W \/ t = n_table N \/ t = d_table N W end.

Section Shape.
  Variables N W : PF.
  Variable RC : ctx N -> ctx N -> Prop.
  Variable RA : aval N -> aval N -> Prop.
  Local Open Scope fld_scope.

  (** If both end, the contexts are related again and so are the results. *)
  Definition shp {A1 A2} (m1 : B N A1) (m2 : B N A2) (R : A1 -> A2 -> Prop) : Prop :=
    forall c1 c2, RC c1 c2 -> forall r1 d1 r2 d2, m1 c1 = Some (r1, d1) -> m2 c2 = Some (r2, d2) -> RC d1 d2 /\ R r1 r2.

  Definition any {A1 A2 : Type} (x : A1) (y : A2) : Prop := True.
  Definition both {A1 A2 B1 B2} (R : A1 -> B1 -> Prop) (S : A2 -> B2 -> Prop) (p : A1 * A2) (q : B1 * B2) : Prop :=
    R (fst p) (fst q) /\ S (snd p) (snd q).
  Definition RO {A1 A2} (R : A1 -> A2 -> Prop) (x : option A1) (y : option A2) : Prop :=
    match x, y with Some a, Some b => R a b | None, None => True | _, _ => False end.
  Definition RS (s t : vschema N) : Prop := match s, t with VA a, VA b => RA a b | VU _, VU _ => True | _, _ => False end.
  (** integers: the same number of additions since the last reduction, and the native cell
      present in both or in neither *)
  Record RI (a b : aint N) : Prop := mkRI {
    ri0 : RA (l0 a) (l0 b); ri1 : RA (l1 a) (l1 b); ri2 : RA (l2 a) (l2 b); ri3 : RA (l3 a) (l3 b);
    rin : RO RA (native_of a) (native_of b); rio : overflows a = overflows b }.
  Record RD (a b : alimbs N) : Prop := mkRD { rd0 : RA (d0 a) (d0 b); rd1 : RA (d1 a) (d1 b); rd2 : RA (d2 a) (d2 b); rd3 : RA (d3 a) (d3 b) }.
  Record RV (a b : acurv N) : Prop := mkRV { rvv : RI (cv_v a) (cv_v b); rvz : RA (cv_z a) (cv_z b) }.
  Record RT (a b : apoint N) : Prop := mkRT { rtx : RI (pt_x a) (pt_x b); rty : RI (pt_y a) (pt_y b); rtz : RA (pt_z a) (pt_z b); rtc : RO RV (pt_c a) (pt_c b) }.

  Hypothesis line : forall ps1 ps2 k mc nx, Forall2 (both RS eq) ps1 ps2 -> shp (one_line ps1 k mc nx) (one_line ps2 k mc nx) (Forall2 RA).
  Hypothesis rline : forall b l ps1 ps2 k mc nx, configured N W b l -> Forall2 (both RS eq) ps1 ps2 ->
    shp (one_line_in_range b l ps1 k mc nx) (one_line_in_range b l ps2 k mc nx) (Forall2 RA).

  Lemma shp_ret {A1 A2} (a1 : A1) (a2 : A2) (R : A1 -> A2 -> Prop) : R a1 a2 -> shp (ret a1) (ret a2) R.
  Proof. intros H c1 c2 HC r1 d1 r2 d2 E1 E2. injection E1 as <- <-. injection E2 as <- <-. auto. Qed.
  Lemma shp_bind {A1 A2 B1 B2} (m1 : B N A1) (m2 : B N A2) (k1 : A1 -> B N B1) (k2 : A2 -> B N B2) (R : A1 -> A2 -> Prop) (S : B1 -> B2 -> Prop) :
    shp m1 m2 R -> (forall a1 a2, R a1 a2 -> shp (k1 a1) (k2 a2) S) -> shp (bind m1 k1) (bind m2 k2) S.
  Proof.
    intros H K c1 c2 HC r1 d1 r2 d2. unfold bind.
    destruct (m1 c1) as [[a1 e1]|] eqn:E1; [|discriminate]. destruct (m2 c2) as [[a2 e2]|] eqn:E2; [|discriminate].
    destruct (H c1 c2 HC _ _ _ _ E1 E2) as [HC' HR]. apply (K a1 a2 HR); exact HC'.
  Qed.
  Lemma shp_weaken {A1 A2} (m1 : B N A1) (m2 : B N A2) (R S : A1 -> A2 -> Prop) : shp m1 m2 R -> (forall a b, R a b -> S a b) -> shp m1 m2 S.
  Proof. intros H K c1 c2 HC r1 d1 r2 d2 E1 E2. destruct (H c1 c2 HC _ _ _ _ E1 E2) as [HC' HR]. auto. Qed.
  Lemma shp_panic_l {A1 A2} (m : B N A2) (R : A1 -> A2 -> Prop) : shp panic m R.
  Proof. intros c1 c2 HC r1 d1 r2 d2 E1. discriminate E1. Qed.
  Lemma shp_panic_r {A1 A2} (m : B N A1) (R : A1 -> A2 -> Prop) : shp m panic R.
  Proof. intros c1 c2 HC r1 d1 r2 d2 E1 E2. discriminate E2. Qed.
  Lemma shp_guard b1 b2 : shp (guard b1) (guard b2) any.
  Proof. destruct b1; [|apply shp_panic_l]. destruct b2; [|apply shp_panic_r]. apply shp_ret. exact I. Qed.
  Lemma Forall2_nth_opt {A1 A2} (R : A1 -> A2 -> Prop) l1 l2 : Forall2 R l1 l2 -> forall i, RO R (nth_error l1 i) (nth_error l2 i).
  Proof. induction 1; destruct i; cbn; auto. Qed.
  Lemma shp_at {A1 A2} (R : A1 -> A2 -> Prop) l1 l2 i : Forall2 R l1 l2 -> shp (at_ l1 i) (at_ l2 i) R.
  Proof.
    intros H. unfold at_. pose proof (Forall2_nth_opt R l1 l2 H i) as K.
    destruct (nth_error l1 i), (nth_error l2 i); cbn in K; try contradiction; [apply shp_ret; exact K|apply shp_panic_l].
  Qed.
  Lemma shp_bmap {A1 A2 B1 B2} (Q : A1 -> A2 -> Prop) (R : B1 -> B2 -> Prop) (f : A1 -> B N B1) (g : A2 -> B N B2) l1 l2 :
    Forall2 Q l1 l2 -> (forall a b, Q a b -> shp (f a) (g b) R) -> shp (bmap f l1) (bmap g l2) (Forall2 R).
  Proof.
    intros H K. induction H; cbn; [apply shp_ret; constructor|].
    eapply shp_bind; [apply K; exact H|]. intros a1 a2 Ha. eapply shp_bind; [exact IHForall2|]. intros b1 b2 Hb. apply shp_ret. constructor; assumption.
  Qed.

  (** ** Lists *)
  Lemma F2_firstn {A1 A2} (R : A1 -> A2 -> Prop) n : forall l1 l2, Forall2 R l1 l2 -> Forall2 R (firstn n l1) (firstn n l2).
  Proof. induction n; intros l1 l2 H; destruct H; cbn; auto. Qed.
  Lemma F2_skipn {A1 A2} (R : A1 -> A2 -> Prop) n : forall l1 l2, Forall2 R l1 l2 -> Forall2 R (skipn n l1) (skipn n l2).
  Proof. induction n; intros l1 l2 H; destruct H; cbn; auto. Qed.
  Lemma F2_len {A1 A2} (R : A1 -> A2 -> Prop) l1 l2 : Forall2 R l1 l2 -> length l1 = length l2.
  Proof. induction 1; cbn; congruence. Qed.
  Lemma F2_repeat {A1 A2} (R : A1 -> A2 -> Prop) a b n : R a b -> Forall2 R (repeat a n) (repeat b n).
  Proof. intros H. induction n; cbn; auto. Qed.
  Lemma F2_rev {A1 A2} (R : A1 -> A2 -> Prop) l1 l2 : Forall2 R l1 l2 -> Forall2 R (rev l1) (rev l2).
  Proof. induction 1; cbn; [constructor|apply Forall2_app; auto]. Qed.
  Lemma F2_map {A1 A2 B1 B2} (Q : A1 -> A2 -> Prop) (R : B1 -> B2 -> Prop) f g l1 l2 :
    Forall2 Q l1 l2 -> (forall a b, Q a b -> R (f a) (g b)) -> Forall2 R (map f l1) (map g l2).
  Proof. intros H K. induction H; cbn; auto. Qed.
  Lemma F2_same {A1} (l : list A1) : Forall2 eq l l.
  Proof. induction l; auto. Qed.
  Lemma F2_combine {A1 A2 B1 B2} (Q : A1 -> A2 -> Prop) (R : B1 -> B2 -> Prop) l1 l2 : Forall2 Q l1 l2 -> forall k1 k2, Forall2 R k1 k2 ->
    Forall2 (both Q R) (combine l1 k1) (combine l2 k2).
  Proof. induction 1; intros k1 k2 HR; cbn; [constructor|]. destruct HR; constructor; [split; assumption|auto]. Qed.

  Lemma resize_rel {A1 A2} (R : A1 -> A2 -> Prop) n a b l1 l2 : R a b -> Forall2 R l1 l2 -> Forall2 R (resize n a l1) (resize n b l2).
  Proof. intros H K. unfold resize. rewrite (F2_len R l1 l2 K). apply Forall2_app; [apply F2_firstn; exact K|apply F2_repeat; exact H]. Qed.
  Lemma empty_rel : both RS eq (@pair_empty N) (@pair_empty N).
  Proof. split; exact I || reflexivity. Qed.

  Local Ltac rel := cbn [fst snd app map cv_v cv_z pt_x pt_y pt_z pt_c native_of overflows l0 l1 l2 l3 d0 d1 d2 d3]; lazymatch goal with
    | |- _ /\ _ => split; rel
    | |- Forall2 _ [] [] => constructor
    | |- Forall2 _ (_ :: _) (_ :: _) => constructor; rel
    | |- Forall2 _ (_ ++ _) (_ ++ _) => apply Forall2_app; rel
    | |- Forall2 _ (resize _ _ _) (resize _ _ _) => apply resize_rel; rel
    | |- Forall2 _ (rev _) (rev _) => apply F2_rev; rel
    | |- Forall2 _ (firstn _ _) (firstn _ _) => apply F2_firstn; rel
    | |- both _ _ pair_empty pair_empty => apply empty_rel
    | |- both _ _ (_, _) (_, _) => split; rel
    | |- RO _ (Some _) (Some _) => hnf; rel
    | |- RO _ None None => exact I
    | |- RS (VA _) (VA _) => hnf; rel
    | |- RS (VU _) (VU _) => exact I
    | |- any _ _ => exact I
    | |- RI (AI _ _ _ _ _ _) (AI _ _ _ _ _ _) => constructor; rel
    | |- RD (AL _ _ _ _) (AL _ _ _ _) => constructor; rel
    | |- RV (AC _ _) (AC _ _) => constructor; rel
    | |- RT (AP _ _ _ _) (AP _ _ _ _) => constructor; rel
    | |- RA (l0 _) (l0 _) => apply ri0; rel
    | |- RA (l1 _) (l1 _) => apply ri1; rel
    | |- RA (l2 _) (l2 _) => apply ri2; rel
    | |- RA (l3 _) (l3 _) => apply ri3; rel
    | |- RA (d0 _) (d0 _) => apply rd0; rel
    | |- RA (d1 _) (d1 _) => apply rd1; rel
    | |- RA (d2 _) (d2 _) => apply rd2; rel
    | |- RA (d3 _) (d3 _) => apply rd3; rel
    | |- RO RA (native_of _) (native_of _) => apply rin; rel
    | |- RI (cv_v _) (cv_v _) => apply rvv; rel
    | |- RA (cv_z _) (cv_z _) => apply rvz; rel
    | |- RI (pt_x _) (pt_x _) => apply rtx; rel
    | |- RI (pt_y _) (pt_y _) => apply rty; rel
    | |- RA (pt_z _) (pt_z _) => apply rtz; rel
    | |- RO RV (pt_c _) (pt_c _) => apply rtc; rel
    | |- RA (fst _) (fst _) => match goal with H : both RA _ ?a ?b |- RA (fst ?a) (fst ?b) => exact (proj1 H) end
    | |- RT (fst _) (fst _) => match goal with H : both RT _ ?a ?b |- RT (fst ?a) (fst ?b) => exact (proj1 H) end
    | |- RI (fst _) (fst _) => match goal with H : both RI _ ?a ?b |- RI (fst ?a) (fst ?b) => exact (proj1 H) end
    | |- RV (fst _) (fst _) => match goal with H : both RV _ ?a ?b |- RV (fst ?a) (fst ?b) => exact (proj1 H) end
    | |- RI (snd _) (snd _) => match goal with H : both _ RI ?a ?b |- RI (snd ?a) (snd ?b) => exact (proj2 H) end
    | |- RT (snd _) (snd _) => match goal with H : both _ RT ?a ?b |- RT (snd ?a) (snd ?b) => exact (proj2 H) end
    | |- _ = _ => first [reflexivity | apply rio; rel | idtac]
    | |- _ => first [eassumption | idtac]
    end.
  Create HintDb shp.
  Local Ltac conf := split; [reflexivity | cbn; auto].
  Local Ltac st := cbv beta zeta; lazymatch goal with
    | |- shp (bind _ _) (bind _ _) _ => eapply shp_bind; [st | intros ? ? ?; st]
    | |- shp (ret _) (ret _) _ => apply shp_ret; rel
    | |- shp panic _ _ => apply shp_panic_l
    | |- shp _ panic _ => apply shp_panic_r
    | |- shp (guard _) (guard _) _ => apply shp_guard
    | |- shp (at_ _ _) (at_ _ _) _ => eapply shp_at; rel
    | |- shp (one_line _ _ _ _) (one_line _ _ _ _) _ => apply line; rel
    | |- shp (one_line_in_range _ _ _ _ _ _) (one_line_in_range _ _ _ _ _ _) _ => apply rline; [first [assumption | conf] | rel]
    | |- shp (match ?a with (_, _) => _ end) (match ?b with (_, _) => _ end) _ =>
        is_var a; is_var b; destruct a, b; match goal with H : both _ _ _ _ |- _ => destruct H; cbn [fst snd] in * end; st
    | |- shp (if feq_dec ?a 0 then _ else _) (if feq_dec ?b 0 then _ else _) _ =>
        destruct (feq_dec a 0); [apply shp_panic_l|]; destruct (feq_dec b 0); [apply shp_panic_r|]; st
    | |- _ => first [solve [eauto with shp nocore] | (eauto 1 with shp nocore; rel) | idtac]
    end.

  (** ** The gates *)
  Lemma last_base_shp ps1 ps2 p q k mc nx : Forall2 (both RS eq) ps1 ps2 -> both RS eq p q ->
    shp (one_line_with_last_base ps1 p k mc nx) (one_line_with_last_base ps2 q k mc nx) (Forall2 RA).
  Proof. intros H K. unfold one_line_with_last_base. st. Qed.
  Definition RE := both RA (@eq N).
  Lemma pairs_rel l1 l2 : Forall2 RE l1 l2 -> Forall2 (both RS eq) (pairs_of l1) (pairs_of l2).
  Proof. intros H. unfold pairs_of. eapply F2_map; [exact H|]. intros [a k] [b k'] [H1 H2]. split; assumption. Qed.
  Lemma sum_loop_shp fuel : forall e1 e2 a1 a2, Forall2 RE e1 e2 -> RO any a1 a2 ->
    shp (sum_loop fuel e1 a1) (sum_loop fuel e2 a2) (both (Forall2 RE) (RO any)).
  Proof.
    induction fuel as [|fuel IH]; intros e1 e2 a1 a2 H K; [apply shp_panic_l|]. cbn [sum_loop].
    assert (L : acc_len a1 = acc_len a2) by (destruct a1, a2; cbn in K; try contradiction; reflexivity).
    rewrite L, (F2_len _ _ _ H). destruct (VAR_COLUMNS <? length e2 + acc_len a2 + 1)%nat; [|apply shp_ret; split; assumption].
    cbv zeta. eapply shp_bind; [apply shp_guard|]. intros _ _ _.
    eapply (shp_bind _ _ _ _ (Forall2 RA)).
    - destruct a1, a2; cbn in K; try contradiction; [apply last_base_shp|apply line]; try apply pairs_rel; rel; assumption.
    - intros x y _. apply IH; [apply F2_skipn; exact H|exact I].
  Qed.
  Lemma swc_shp l1 l2 k : Forall2 RE l1 l2 -> shp (Gate.sum_with_constant l1 k) (Gate.sum_with_constant l2 k) RA.
  Proof.
    intros H. unfold Gate.sum_with_constant. eapply shp_bind; [rewrite (F2_len _ _ _ H); apply sum_loop_shp; [exact H|exact I]|].
    intros [r1 a1] [r2 a2] [H1 H2]. cbn [fst snd] in *. cbv zeta.
    eapply (shp_bind _ _ _ _ (Forall2 RA)); [|intros x y Hx; apply shp_at; exact Hx].
    destruct a1, a2; cbn in H2; try contradiction; [apply last_base_shp|apply line]; rel; apply pairs_rel; exact H1.
  Qed.
  Hint Resolve swc_shp : shp.
  Local Ltac rel2 := unfold RE; rel.
  Lemma add_shp a1 a2 b1 b2 : RA a1 a2 -> RA b1 b2 -> shp (add a1 b1) (add a2 b2) RA.
  Proof. intros. apply swc_shp. rel2. Qed.
  Lemma sub_shp a1 a2 b1 b2 : RA a1 a2 -> RA b1 b2 -> shp (sub a1 b1) (sub a2 b2) RA.
  Proof. intros. apply swc_shp. rel2. Qed.
  Lemma addc_shp a1 a2 k : RA a1 a2 -> shp (add_constant a1 k) (add_constant a2 k) RA.
  Proof. intros. apply swc_shp. rel2. Qed.
  Lemma not_shp a1 a2 : RA a1 a2 -> shp (not_ a1) (not_ a2) RA.
  Proof. intros. apply swc_shp. rel2. Qed.
  Lemma mul_shp a1 a2 b1 b2 : RA a1 a2 -> RA b1 b2 -> shp (mul a1 b1) (mul a2 b2) RA.
  Proof. intros. unfold mul. st. Qed.
  Lemma mulc_shp a1 a2 b1 b2 k : RA a1 a2 -> RA b1 b2 -> shp (mul_add_constant a1 b1 k) (mul_add_constant a2 b2 k) RA.
  Proof. intros. unfold mul_add_constant. st. Qed.
  Lemma muladd_shp a1 a2 b1 b2 c1 c2 k : RA a1 a2 -> RA b1 b2 -> RA c1 c2 -> shp (mul_add a1 b1 c1 k) (mul_add a2 b2 c2 k) RA.
  Proof. intros. unfold mul_add. st. Qed.
  Lemma muladd2_shp a1 a2 b1 b2 c1 c2 k e1 e2 k' : RA a1 a2 -> RA b1 b2 -> RA c1 c2 -> RA e1 e2 ->
    shp (mul_add2 a1 b1 c1 k e1 k') (mul_add2 a2 b2 c2 k e2 k') RA.
  Proof. intros. unfold mul_add2. st. Qed.
  Definition R4 := both (both (both RA RA) RA) (@eq N).
  Lemma mafold_shp l1 l2 : Forall2 R4 l1 l2 -> forall a1 a2, RA a1 a2 -> shp (mul_add_fold a1 l1) (mul_add_fold a2 l2) RA.
  Proof.
    induction 1 as [|[[[a b] c] k] [[[a' b'] c'] k'] l1 l2 [[[H1 H2] H3] H4] HL IH]; intros a1 a2 HA; cbn [mul_add_fold]; [apply shp_ret; exact HA|].
    cbn [fst snd] in *. subst k'. eapply shp_bind; [apply muladd2_shp; assumption|]. intros x y Hx. apply IH. exact Hx.
  Qed.
  Lemma manl_shp l1 l2 : Forall2 R4 l1 l2 -> shp (mul_add_with_next_line l1) (mul_add_with_next_line l2) RA.
  Proof.
    intros H. destruct H as [|[[[a b] c] k] [[[a' b'] c'] k'] l1 l2 [[[H1 H2] H3] H4] HL]; [apply shp_panic_l|].
    cbn [fst snd mul_add_with_next_line] in *. subst k'. eapply shp_bind; [apply muladd_shp; assumption|]. intros x y Hx. apply mafold_shp; assumption.
  Qed.
  Lemma invert_shp a1 a2 : RA a1 a2 -> shp (invert a1) (invert a2) (both RA RA).
  Proof. intros. unfold invert. st. Qed.
  Hint Resolve add_shp sub_shp addc_shp not_shp mul_shp mulc_shp muladd_shp muladd2_shp invert_shp : shp.
  Lemma invert_unsafe_shp a1 a2 : RA a1 a2 -> shp (invert_unsafe a1) (invert_unsafe a2) RA.
  Proof. intros. unfold invert_unsafe. st. Qed.
  Lemma is_zero_shp a1 a2 : RA a1 a2 -> shp (is_zero a1) (is_zero a2) RA.
  Proof. intros. unfold is_zero. st. Qed.
  Lemma div_unsafe_shp a1 a2 b1 b2 : RA a1 a2 -> RA b1 b2 -> shp (div_unsafe a1 b1) (div_unsafe a2 b2) RA.
  Proof. intros. unfold div_unsafe. st. Qed.
  Lemma const_shp v : shp (assign_constant v) (assign_constant v) RA.
  Proof. unfold assign_constant, one_line_add. st. Qed.
  Lemma assign_shp v1 v2 : shp (assign v1) (assign v2) RA.
  Proof. unfold assign, one_line_add. st. Qed.
  Lemma aeq_shp a1 a2 b1 b2 : RA a1 a2 -> RA b1 b2 -> shp (assert_equal a1 b1) (assert_equal a2 b2) any.
  Proof. intros. unfold assert_equal, one_line_add. st. Qed.
  Lemma aconst_shp a1 a2 k : RA a1 a2 -> shp (assert_constant a1 k) (assert_constant a2 k) any.
  Proof. intros. unfold assert_constant, one_line_add. st. Qed.
  Lemma abit_shp a1 a2 : RA a1 a2 -> shp (assert_bit a1) (assert_bit a2) any.
  Proof. intros. unfold assert_bit. st. Qed.
  Lemma and_shp a1 a2 b1 b2 : RA a1 a2 -> RA b1 b2 -> shp (and_ a1 b1) (and_ a2 b2) RA.
  Proof. intros. unfold and_. st. Qed.
  Lemma or_shp a1 a2 b1 b2 : RA a1 a2 -> RA b1 b2 -> shp (or_ a1 b1) (or_ a2 b2) RA.
  Proof. intros. unfold or_. st. Qed.
  Lemma xor_shp a1 a2 b1 b2 : RA a1 a2 -> RA b1 b2 -> shp (xor_ a1 b1) (xor_ a2 b2) RA.
  Proof. intros. unfold xor_. st. Qed.
  Lemma xnor_shp a1 a2 b1 b2 : RA a1 a2 -> RA b1 b2 -> shp (xnor_ a1 b1) (xnor_ a2 b2) RA.
  Proof. intros. unfold xnor_. st. Qed.
  Lemma bisec_shp c1 c2 a1 a2 b1 b2 : RA c1 c2 -> RA a1 a2 -> RA b1 b2 -> shp (bisec c1 a1 b1) (bisec c2 a2 b2) RA.
  Proof. intros. unfold bisec. st. Qed.
  Lemma atrue_shp a1 a2 : RA a1 a2 -> shp (assert_true a1) (assert_true a2) any.
  Proof. intros. apply aconst_shp. assumption. Qed.
  Lemma afalse_shp a1 a2 : RA a1 a2 -> shp (assert_false a1) (assert_false a2) any.
  Proof. intros. apply aconst_shp. assumption. Qed.
  Hint Resolve invert_unsafe_shp is_zero_shp div_unsafe_shp const_shp assign_shp aeq_shp aconst_shp abit_shp and_shp or_shp xor_shp xnor_shp bisec_shp atrue_shp afalse_shp : shp.

  (** ** Integers *)
  Lemma schema_rel n1 n2 k : Forall2 (both RS eq) (schema_of (decompose_bn (N := N) n1 k)) (schema_of (decompose_bn n2 k)).
  Proof.
    unfold schema_of, decompose_bn. rewrite <- !map_rev, !map_map. eapply F2_map; [apply F2_same|].
    intros a b ->. split; [exact I|reflexivity].
  Qed.
  Lemma nl_shp v1 v2 : shp (assign_nonleading_limb v1) (assign_nonleading_limb v2) RA.
  Proof. unfold assign_nonleading_limb. st. apply schema_rel. Qed.
  Hint Resolve nl_shp : shp.
  Lemma ll_shp bits t v1 v2 : configured N W COMMON_RANGE_BITS (Some t) -> shp (assign_leading_limb bits t v1) (assign_leading_limb bits t v2) RA.
  Proof. intros HT. unfold assign_leading_limb. cbv zeta. destruct (_ =? 0)%Z; st. apply schema_rel. Qed.
  Lemma wl_shp v1 v2 : shp (assign_w_ceil_leading_limb N W v1) (assign_w_ceil_leading_limb N W v2) RA. Proof. apply ll_shp. conf. Qed.
  Lemma fl_shp v1 v2 : shp (assign_n_floor_leading_limb N v1) (assign_n_floor_leading_limb N v2) RA. Proof. apply ll_shp. conf. Qed.
  Lemma dl_shp v1 v2 : shp (assign_d_leading_limb N W v1) (assign_d_leading_limb N W v2) RA.
  Proof. unfold assign_d_leading_limb. cbv zeta. destruct (_ =? 0)%Z; st. apply schema_rel. Qed.
  Hint Resolve wl_shp fl_shp dl_shp : shp.
  Lemma assign_d_shp v1 v2 : shp (assign_d W v1) (assign_d W v2) RD.
  Proof. unfold assign_d. st. Qed.
  Lemma assign_w_shp (v1 v2 : W) : shp (assign_w v1) (assign_w v2) RI.
  Proof. unfold assign_w. st. Qed.
  Lemma assign_integer_shp v1 v2 : shp (assign_integer v1) (assign_integer v2) RD.
  Proof. unfold assign_integer. st. Qed.
  Lemma exps_rel a0 b0 a1 b1 a2 b2 a3 b3 : RA a0 b0 -> RA a1 b1 -> RA a2 b2 -> RA a3 b3 -> Forall2 RE (with_exps a0 a1 a2 a3) (with_exps b0 b1 b2 b3).
  Proof. intros. unfold with_exps. rel2. Qed.
  Lemma int_native_shp a b : RI a b -> shp (int_native a) (int_native b) (both RA RI).
  Proof.
    intros H. unfold int_native. pose proof (rin _ _ H) as K.
    destruct (native_of a) eqn:Ea, (native_of b) eqn:Eb; cbn in K; try contradiction; [apply shp_ret; split; assumption|].
    eapply shp_bind; [apply swc_shp, exps_rel; rel|]. intros x y Hx. apply shp_ret. rel.
  Qed.
  Hint Resolve assign_d_shp assign_w_shp int_native_shp : shp.
  Lemma int_reduce_shp a b : RI a b -> shp (int_reduce W a) (int_reduce W b) RI.
  Proof.
    intros H. unfold int_reduce. rewrite (rio _ _ H). destruct (overflows b =? 0)%nat; [apply shp_ret; exact H|].
    unfold one_line_add. st.
  Qed.
  Hint Resolve int_reduce_shp : shp.
  Lemma cred_shp a b : RI a b -> shp (conditionally_reduce W a) (conditionally_reduce W b) RI.
  Proof. intros H. unfold conditionally_reduce. rewrite (rio _ _ H). destruct (_ <=? _)%nat; [apply int_reduce_shp; exact H|apply shp_ret; exact H]. Qed.
  Lemma int_add_shp a1 a2 b1 b2 : RI a1 a2 -> RI b1 b2 -> shp (int_add W a1 b1) (int_add W a2 b2) RI.
  Proof.
    intros H K. unfold int_add. rewrite (rio _ _ H), (rio _ _ K).
    repeat (eapply shp_bind; [apply add_shp; rel|intros ? ? ?]). apply cred_shp. rel.
  Qed.
  Lemma opt_shp {A} (o : option A) : shp (opt o) (opt o) eq.
  Proof. destruct o; [apply shp_ret; reflexivity|apply shp_panic_l]. Qed.
  Lemma int_sub_shp a1 a2 b1 b2 : RI a1 a2 -> RI b1 b2 -> shp (int_sub W a1 b1) (int_sub W a2 b2) RI.
  Proof.
    intros H K. unfold int_sub. rewrite (rio _ _ H), (rio _ _ K). eapply shp_bind; [apply opt_shp|]. intros u ? <-. destruct u as [[[u0 u1] u2] u3].
    repeat (eapply shp_bind; [apply swc_shp; rel2|intros ? ? ?]). apply cred_shp. rel.
  Qed.
  Lemma int_neg_shp a b : RI a b -> shp (int_neg W a) (int_neg W b) RI.
  Proof.
    intros H. unfold int_neg. rewrite (rio _ _ H). eapply shp_bind; [apply opt_shp|]. intros u ? <-. destruct u as [[[u0 u1] u2] u3].
    repeat (eapply shp_bind; [apply swc_shp; rel2|intros ? ? ?]). apply cred_shp. rel.
  Qed.
  Hint Resolve cred_shp int_add_shp int_sub_shp int_neg_shp : shp.
  Lemma mul_limbs_shp a1 a2 b1 b2 e1 e2 r1 r2 : RI a1 a2 -> RI b1 b2 -> RD e1 e2 -> RI r1 r2 ->
    shp (mul_limbs W a1 b1 e1 r1) (mul_limbs W a2 b2 e2 r2) any.
  Proof.
    intros. unfold mul_limbs. do 3 (eapply shp_bind; [apply shp_guard|intros ? ? ?]).
    do 4 (eapply shp_bind; [apply manl_shp; unfold R4; rel|intros ? ? ?]). cbv zeta.
    do 4 (eapply shp_bind; [eauto with shp nocore|intros ? ? ?]).
    unfold one_line_add.
    eapply shp_bind; [apply swc_shp; rel2|intros ? ? ?]. eapply shp_bind; [st|intros ? ? ?].
    eapply shp_bind; [apply swc_shp; rel2|intros ? ? ?]. eapply shp_bind; [st|intros ? ? ?]. apply shp_ret. exact I.
  Qed.
  Lemma mul_native_shp a1 a2 b1 b2 e1 e2 r1 r2 : RI a1 a2 -> RI b1 b2 -> RD e1 e2 -> RI r1 r2 ->
    shp (mul_native W a1 b1 e1 r1) (mul_native W a2 b2 e2 r2) (both (both RI RI) RI).
  Proof.
    intros. unfold mul_native. eapply shp_bind; [apply int_native_shp; assumption|intros ? ? ?]. eapply shp_bind; [apply int_native_shp; assumption|intros ? ? ?].
    eapply shp_bind; [apply swc_shp, exps_rel; rel|intros ? ? ?]. eapply shp_bind; [apply int_native_shp; assumption|intros ? ? ?]. st.
  Qed.
  Lemma square_native_shp a1 a2 e1 e2 r1 r2 : RI a1 a2 -> RD e1 e2 -> RI r1 r2 -> shp (square_native W a1 e1 r1) (square_native W a2 e2 r2) (both RI RI).
  Proof.
    intros. unfold square_native. eapply shp_bind; [apply int_native_shp; assumption|intros ? ? ?].
    eapply shp_bind; [apply swc_shp, exps_rel; rel|intros ? ? ?]. eapply shp_bind; [apply int_native_shp; assumption|intros ? ? ?]. st.
  Qed.
  Hint Resolve mul_limbs_shp mul_native_shp square_native_shp : shp.
  Lemma int_mul_shp a1 a2 b1 b2 : RI a1 a2 -> RI b1 b2 -> shp (int_mul W a1 b1) (int_mul W a2 b2) (both (both RI RI) RI).
  Proof.
    intros. unfold int_mul. cbv zeta. eapply shp_bind; [apply assign_w_shp|intros ? ? ?]. eapply shp_bind; [apply assign_d_shp|intros ? ? ?].
    eapply shp_bind; [apply mul_limbs_shp; assumption|intros ? ? ?]. eapply shp_bind; [apply mul_native_shp; assumption|].
    intros [[x1 y1] z1] [[x2 y2] z2] [[X Y] Z]. apply shp_ret. rel; assumption.
  Qed.
  Lemma int_square_shp a1 a2 : RI a1 a2 -> shp (int_square W a1) (int_square W a2) (both RI RI).
  Proof.
    intros. unfold int_square. cbv zeta. eapply shp_bind; [apply assign_w_shp|intros ? ? ?]. eapply shp_bind; [apply assign_d_shp|intros ? ? ?].
    eapply shp_bind; [apply mul_limbs_shp; assumption|intros ? ? ?]. eapply shp_bind; [apply square_native_shp; assumption|].
    intros [x1 y1] [x2 y2] [X Y]. apply shp_ret. rel; assumption.
  Qed.
  Lemma is_pure_zero_shp a b : RI a b -> shp (is_pure_zero a) (is_pure_zero b) RA.
  Proof. intros. unfold is_pure_zero. eapply shp_bind; [apply swc_shp; rel2|intros ? ? ?]. apply is_zero_shp. assumption. Qed.
  Lemma is_pure_w_shp a b : RI a b -> shp (is_pure_w_modulus W a) (is_pure_w_modulus W b) (both RA RI).
  Proof.
    intros. unfold is_pure_w_modulus. eapply shp_bind; [apply int_native_shp; assumption|intros ? ? ?].
    eapply shp_bind; [apply swc_shp; rel2|intros ? ? ?]. eapply shp_bind; [apply is_zero_shp; assumption|intros ? ? ?].
    eapply shp_bind; [apply swc_shp; rel2|intros ? ? ?]. eapply shp_bind; [apply is_zero_shp; assumption|intros ? ? ?].
    eapply shp_bind; [apply and_shp; assumption|intros ? ? ?]. apply shp_ret. rel.
  Qed.
  Lemma int_is_zero_shp a b : RI a b -> shp (int_is_zero W a) (int_is_zero W b) (both RA RI).
  Proof.
    intros. unfold int_is_zero. eapply shp_bind; [apply int_reduce_shp; assumption|intros ? ? ?]. eapply shp_bind; [apply is_pure_zero_shp; assumption|intros ? ? ?].
    eapply shp_bind; [apply is_pure_w_shp; assumption|intros ? ? ?]. eapply shp_bind; [apply or_shp; rel|intros ? ? ?]. apply shp_ret. rel.
  Qed.
  Lemma int_is_equal_shp a1 a2 b1 b2 : RI a1 a2 -> RI b1 b2 -> shp (int_is_equal W a1 b1) (int_is_equal W a2 b2) RA.
  Proof.
    intros. unfold int_is_equal. eapply shp_bind; [apply int_sub_shp; assumption|intros ? ? ?]. eapply shp_bind; [apply int_is_zero_shp; assumption|intros ? ? ?]. apply shp_ret. rel.
  Qed.
  Lemma int_assert_equal_shp a1 a2 b1 b2 : RI a1 a2 -> RI b1 b2 -> shp (int_assert_equal W a1 b1) (int_assert_equal W a2 b2) any.
  Proof.
    intros. unfold int_assert_equal. eapply shp_bind; [apply int_sub_shp; assumption|intros ? ? ?]. eapply shp_bind; [apply int_reduce_shp; assumption|intros ? ? ?].
    eapply shp_bind; [apply int_native_shp; assumption|intros ? ? ?]. eapply shp_bind; [apply aconst_shp; rel|intros ? ? ?]. apply aconst_shp. rel.
  Qed.
  Lemma int_div_shp a1 a2 b1 b2 : RI a1 a2 -> RI b1 b2 -> shp (int_div W a1 b1) (int_div W a2 b2) (both (both (both RA RI) RI) RI).
  Proof.
    intros. unfold int_div. eapply shp_bind; [apply int_is_zero_shp; assumption|]. intros [z1 c1] [z2 c2] [Hz Hc]. cbn [fst snd] in *.
    eapply shp_bind; [apply not_shp; assumption|intros ? ? ?]. eapply shp_bind; [apply int_reduce_shp; assumption|intros ? ? Hr].
    do 4 (eapply shp_bind; [apply mul_shp; rel|intros ? ? ?]). cbv zeta.
    eapply shp_bind; [apply shp_guard|intros ? ? ?]. eapply shp_bind; [apply assign_w_shp|intros ? ? ?]. eapply shp_bind; [apply assign_d_shp|intros ? ? ?].
    rewrite (rio _ _ Hr).
    eapply shp_bind; [apply mul_limbs_shp; rel|intros ? ? ?]. eapply shp_bind; [apply mul_native_shp; rel|].
    intros [[x1 y1] w1] [[x2 y2] w2] [[X Y] Z]. apply shp_ret. rel; assumption.
  Qed.
  Lemma int_const_shp (v : W) : shp (int_assign_constant v) (int_assign_constant v) RI.
  Proof. unfold int_assign_constant. cbv zeta. do 4 (eapply shp_bind; [apply const_shp|intros ? ? ?]). apply shp_ret. rel. Qed.
  Lemma mul_small_shp a b k : RI a b -> shp (mul_small_constant W a k) (mul_small_constant W b k) (both RI RI).
  Proof.
    intros H. unfold mul_small_constant. rewrite (rio _ _ H). eapply shp_bind; [apply shp_guard|intros ? ? ?].
    eapply (shp_bind _ _ _ _ RI); [destruct (_ <=? _)%nat; [apply int_reduce_shp; exact H|apply shp_ret; exact H]|]. intros a' b' Hr. cbv zeta.
    do 4 (eapply shp_bind; [apply swc_shp; rel2|intros ? ? ?]). rewrite (rio _ _ Hr).
    eapply shp_bind; [apply cred_shp; rel|intros ? ? ?]. apply shp_ret. rel.
  Qed.
  Lemma int_bisec_shp c1 c2 a1 a2 b1 b2 : RA c1 c2 -> RI a1 a2 -> RI b1 b2 -> shp (int_bisec c1 a1 b1) (int_bisec c2 a2 b2) RI.
  Proof.
    intros HC H K. unfold int_bisec. rewrite (rio _ _ H), (rio _ _ K). do 4 (eapply shp_bind; [apply bisec_shp; rel|intros ? ? ?]). apply shp_ret. rel.
  Qed.
  Lemma last_bit_shp a b : RI a b -> shp (get_last_bit a) (get_last_bit b) RA.
  Proof.
    intros. unfold get_last_bit. cbv zeta. eapply shp_bind; [apply nl_shp|intros ? ? ?]. eapply shp_bind; [apply line; rel|intros ? ? ?].
    eapply shp_bind; [eapply shp_at; eassumption|intros ? ? ?]. eapply shp_bind; [apply abit_shp; assumption|intros ? ? ?]. apply shp_ret. assumption.
  Qed.

  (** ** Points *)
  Lemma curvature_shp a b : RT a b -> shp (curvature W a) (curvature W b) (both RV RT).
  Proof.
    intros H. unfold curvature. pose proof (rtc _ _ H) as K.
    destruct (pt_c a), (pt_c b); cbn in K; try contradiction; [apply shp_ret; split; assumption|].
    eapply shp_bind; [apply int_square_shp; rel|]. intros [x1 y1] [x2 y2] [X Y]. cbn [fst snd] in *.
    eapply shp_bind; [apply mul_small_shp; assumption|intros ? ? ?]. eapply shp_bind; [apply mul_small_shp; rel|intros ? ? ?].
    eapply shp_bind; [apply int_div_shp; rel|]. intros [[[z1 v1] p1] q1] [[[z2 v2] p2] q2] [[[Z V] P] Q]. cbn [fst snd] in *. cbv zeta. apply shp_ret. rel.
  Qed.
  Lemma bisec_curv_shp c1 c2 a1 a2 b1 b2 : RA c1 c2 -> RV a1 a2 -> RV b1 b2 -> shp (bisec_curvature c1 a1 b1) (bisec_curvature c2 a2 b2) RV.
  Proof.
    intros. unfold bisec_curvature. eapply shp_bind; [apply int_bisec_shp; rel|intros ? ? ?]. eapply shp_bind; [apply bisec_shp; rel|intros ? ? ?]. apply shp_ret. rel.
  Qed.
  Lemma bisec_point_shp c1 c2 a1 a2 b1 b2 : RA c1 c2 -> RT a1 a2 -> RT b1 b2 -> shp (bisec_point c1 a1 b1) (bisec_point c2 a2 b2) RT.
  Proof.
    intros. unfold bisec_point. do 2 (eapply shp_bind; [apply int_bisec_shp; rel|intros ? ? ?]). eapply shp_bind; [apply bisec_shp; rel|intros ? ? ?]. apply shp_ret. rel.
  Qed.
  Lemma bpc_shp c1 c2 a1 a2 b1 b2 : RA c1 c2 -> RT a1 a2 -> RT b1 b2 -> shp (bisec_point_with_curvature W c1 a1 b1) (bisec_point_with_curvature W c2 a2 b2) RT.
  Proof.
    intros. unfold bisec_point_with_curvature. do 2 (eapply shp_bind; [apply int_bisec_shp; rel|intros ? ? ?]). eapply shp_bind; [apply bisec_shp; rel|intros ? ? ?].
    do 2 (eapply shp_bind; [apply curvature_shp; assumption|intros ? ? ?]). eapply shp_bind; [apply bisec_curv_shp; rel|intros ? ? ?]. apply shp_ret. rel.
  Qed.
  Lemma ltp_shp v1 v2 a1 a2 b1 b2 : RV v1 v2 -> RT a1 a2 -> RT b1 b2 -> shp (lambda_to_point W v1 a1 b1) (lambda_to_point W v2 a2 b2) RT.
  Proof.
    intros. unfold lambda_to_point. eapply shp_bind; [apply int_square_shp; rel|]. intros [x1 y1] [x2 y2] [X Y]. cbn [fst snd] in *.
    do 3 (eapply shp_bind; [apply int_sub_shp; rel|intros ? ? ?]). eapply shp_bind; [apply int_mul_shp; rel|]. intros [[t1 p1] q1] [[t2 p2] q2] [[T P] Q]. cbn [fst snd] in *.
    eapply shp_bind; [apply int_sub_shp; rel|intros ? ? ?]. apply shp_ret. rel.
  Qed.
  Lemma ecc_add_shp a1 a2 b1 b2 : RT a1 a2 -> RT b1 b2 -> shp (ecc_add W a1 b1) (ecc_add W a2 b2) (both RT RT).
  Proof.
    intros. unfold ecc_add. do 2 (eapply shp_bind; [apply int_sub_shp; rel|intros ? ? ?]). eapply shp_bind; [apply int_div_shp; rel|].
    intros [[[z1 v1] p1] q1] [[[z2 v2] p2] q2] [[[Z V] P] Q]. cbn [fst snd] in *.
    eapply shp_bind; [apply int_is_zero_shp; rel|intros ? ? ?]. eapply shp_bind; [apply and_shp; rel|intros ? ? ?].
    eapply shp_bind; [apply curvature_shp; assumption|]. intros [c1 a1'] [c2 a2'] [C A]. cbn [fst snd] in *.
    eapply shp_bind; [apply bisec_curv_shp; rel|intros ? ? ?]. eapply shp_bind; [apply ltp_shp; rel|intros ? ? ?].
    do 2 (eapply shp_bind; [apply bisec_point_shp; rel|intros ? ? ?]). apply shp_ret. rel.
  Qed.
  Lemma ecc_double_shp a1 a2 : RT a1 a2 -> shp (ecc_double W a1) (ecc_double W a2) (both RT RT).
  Proof.
    intros. unfold ecc_double. eapply shp_bind; [apply curvature_shp; assumption|]. intros [c1 a1'] [c2 a2'] [C A]. cbn [fst snd] in *.
    eapply shp_bind; [apply ltp_shp; rel|intros ? ? ?]. eapply shp_bind; [apply bisec_shp; rel|intros ? ? ?]. apply shp_ret. rel.
  Qed.
  Lemma const_point_shp (P : point W) : shp (assign_constant_point P) (assign_constant_point P) RT.
  Proof.
    unfold assign_constant_point. destruct (coords P) as [[x y] z]. do 2 (eapply shp_bind; [apply int_const_shp|intros ? ? ?]). eapply shp_bind; [apply const_shp|intros ? ? ?]. apply shp_ret. rel.
  Qed.
  Lemma const_pointc_shp (P : point W) : shp (assign_constant_point_with_curvature P) (assign_constant_point_with_curvature P) RT.
  Proof.
    unfold assign_constant_point_with_curvature. destruct (coords P) as [[x y] z]. eapply shp_bind; [apply int_const_shp|intros ? ? ?]. eapply shp_bind; [apply const_shp|intros ? ? ?].
    do 2 (eapply shp_bind; [apply int_const_shp|intros ? ? ?]). eapply shp_bind; [apply const_shp|intros ? ? ?]. apply shp_ret. rel.
  Qed.
  Lemma assign_point_shp (P Q : point W) : shp (assign_point P) (assign_point Q) RT.
  Proof.
    unfold assign_point. destruct (coords P) as [[x y] z], (coords Q) as [[x' y'] z'].
    do 2 (eapply shp_bind; [apply assign_w_shp|intros ? ? ?]). eapply shp_bind; [apply assign_shp|intros ? ? ?]. eapply shp_bind; [apply int_const_shp|intros ? ? ?].
    do 2 (eapply shp_bind; [apply int_square_shp; assumption|intros [? ?] [? ?] [? ?]; cbn [fst snd] in * ]).
    eapply shp_bind; [apply int_mul_shp; assumption|]. intros [[? ?] ?] [[? ?] ?] [[? ?] ?]. cbn [fst snd] in *.
    eapply shp_bind; [apply int_add_shp; assumption|intros ? ? ?]. eapply shp_bind; [apply int_is_equal_shp; assumption|intros ? ? ?].
    eapply shp_bind; [apply or_shp; assumption|intros ? ? ?]. eapply shp_bind; [apply atrue_shp; assumption|intros ? ? ?]. apply shp_ret. rel.
  Qed.
  Lemma identity_shp : shp (assign_identity W) (assign_identity W) RT.
  Proof.
    unfold assign_identity. eapply shp_bind; [apply int_const_shp|intros ? ? ?]. eapply shp_bind; [apply const_shp|intros ? ? ?]. apply shp_ret. rel.
  Qed.
  Lemma ecc_aeq_shp a1 a2 b1 b2 : RT a1 a2 -> RT b1 b2 -> shp (ecc_assert_equal W a1 b1) (ecc_assert_equal W a2 b2) any.
  Proof.
    intros. unfold ecc_assert_equal. do 2 (eapply shp_bind; [apply int_is_equal_shp; rel|intros ? ? ?]). eapply shp_bind; [apply xnor_shp; rel|intros ? ? ?].
    do 3 (eapply shp_bind; [apply and_shp; rel|intros ? ? ?]). eapply shp_bind; [apply or_shp; rel|intros ? ? ?]. apply aconst_shp. assumption.
  Qed.
  Lemma ecc_neg_shp a b : RT a b -> shp (ecc_neg W a) (ecc_neg W b) RT.
  Proof. intros. unfold ecc_neg. eapply shp_bind; [apply int_neg_shp; rel|intros ? ? ?]. apply shp_ret. rel. Qed.
  Lemma ecc_sub_shp a1 a2 b1 b2 : RT a1 a2 -> RT b1 b2 -> shp (ecc_sub W a1 b1) (ecc_sub W a2 b2) (both RT RT).
  Proof. intros. unfold ecc_sub. eapply shp_bind; [apply ecc_neg_shp; assumption|intros ? ? ?]. apply ecc_add_shp; assumption. Qed.
  Lemma ecc_reduce_shp a b : RT a b -> shp (ecc_reduce W a) (ecc_reduce W b) (both RT RT).
  Proof.
    intros. unfold ecc_reduce. do 2 (eapply shp_bind; [apply int_reduce_shp; rel|intros ? ? ?]). cbv zeta. eapply shp_bind; [apply identity_shp|intros ? ? ?].
    eapply shp_bind; [apply bisec_point_shp; rel|intros ? ? ?]. apply shp_ret. rel.
  Qed.

  (** ** Scalars *)
  Definition RW := Forall2 (Forall2 RA).
  Lemma bits_len ws s : length (fst (decompose_bits (N := N) ws s)) = ws.
  Proof. cbn [decompose_bits fst]. rewrite map_length, seq_length. reflexivity. Qed.
  Lemma bits_rel ws : forall i b1 b2, length b1 = ws -> length b2 = ws ->
    Forall2 (both RS eq) (map (fun iv => (VU (snd iv), ofZ (2 ^ Z.of_nat (fst iv)))) (combine (seq i ws) b1))
            (map (fun iv => (VU (snd iv), ofZ (2 ^ Z.of_nat (fst iv)) : N)) (combine (seq i ws) b2)).
  Proof.
    induction ws as [|ws IH]; intros i b1 b2 H1 H2; [constructor|]. destruct b1; [discriminate|]. destruct b2; [discriminate|]. cbn [seq combine map].
    constructor; [split; [exact I|reflexivity]|]. apply IH; [injection H1 as H1; exact H1|injection H2 as H2; exact H2].
  Qed.
  Lemma dline_shp ws b1 b2 s1 s2 nx : length b1 = ws -> length b2 = ws -> RS s1 s2 ->
    shp (decompose_line ws b1 s1 nx) (decompose_line ws b2 s2 nx) (Forall2 RA).
  Proof.
    intros H1 H2 HS. unfold decompose_line. cbv zeta. eapply shp_bind; [apply last_base_shp; [apply bits_rel; assumption|split; [exact HS|reflexivity]]|].
    intros x y Hx. apply shp_ret. apply F2_firstn. exact Hx.
  Qed.
  Lemma dmid_shp ws n : forall s1 s2, shp (decompose_mid ws n s1) (decompose_mid ws n s2) (both RW any).
  Proof.
    induction n as [|n IH]; intros s1 s2; cbn [decompose_mid]; [apply shp_ret; split; [constructor|exact I]|].
    destruct (decompose_bits ws s1) as [b1 t1] eqn:E1, (decompose_bits ws s2) as [b2 t2] eqn:E2.
    assert (length b1 = ws) by (rewrite <- (bits_len ws s1), E1; reflexivity). assert (length b2 = ws) by (rewrite <- (bits_len ws s2), E2; reflexivity).
    eapply shp_bind; [apply dline_shp; [assumption..|exact I]|]. intros x y Hx. eapply shp_bind; [apply IH|]. intros p q [Hp _]. apply shp_ret. split; [constructor; assumption|exact I].
  Qed.
  Lemma decompose_shp ws a b : RA a b -> shp (decompose_scalar ws a) (decompose_scalar ws b) RW.
  Proof.
    intros H. unfold decompose_scalar.
    destruct (decompose_bits ws (toZ (av_val a))) as [b1 t1] eqn:E1, (decompose_bits ws (toZ (av_val b))) as [b2 t2] eqn:E2.
    assert (length b1 = ws) by (rewrite <- (bits_len ws (toZ (av_val a))), E1; reflexivity).
    assert (length b2 = ws) by (rewrite <- (bits_len ws (toZ (av_val b))), E2; reflexivity).
    eapply shp_bind; [apply dline_shp; [assumption..|exact H]|]. intros x y Hx. eapply shp_bind; [apply dmid_shp|]. intros [p s] [p' s'] [Hp _]. cbn [fst snd] in *.
    destruct (decompose_bits ws s) as [b3 t3] eqn:E3, (decompose_bits ws s') as [b4 t4] eqn:E4.
    assert (length b3 = ws) by (rewrite <- (bits_len ws s), E3; reflexivity). assert (length b4 = ws) by (rewrite <- (bits_len ws s'), E4; reflexivity).
    eapply shp_bind; [apply dline_shp; [assumption..|exact I]|]. intros z z' Hz. cbv zeta.
    assert (K : RW (rev (x :: p ++ [z])) (rev (y :: p' ++ [z']))).
    { apply F2_rev. constructor; [exact Hx|]. apply Forall2_app; [exact Hp|]. constructor; [exact Hz|constructor]. }
    eapply shp_bind; [eapply shp_bmap; [exact K|]|].
    - intros l l' Hl. eapply shp_bmap; [exact Hl|]. intros; apply abit_shp; assumption.
    - intros _ _ _. apply shp_ret. exact K.
  Qed.

  (** ** Scalar multiplication *)
  Lemma cands_shp n : forall p1 p2 a1 a2, RT p1 p2 -> RT a1 a2 -> shp (build_candidates W n p1 a1) (build_candidates W n p2 a2) (Forall2 RT).
  Proof.
    induction n as [|n IH]; intros p1 p2 a1 a2 HP HA; cbn [build_candidates]; [apply shp_ret; constructor; [exact HP|constructor]|].
    eapply shp_bind; [apply ecc_add_shp; assumption|]. intros [? ?] [? ?] [? ?]. cbn [fst snd] in *. eapply shp_bind; [apply IH; assumption|intros ? ? ?]. apply shp_ret. constructor; assumption.
  Qed.
  Lemma candsc_shp n : forall p1 p2 a1 a2, RT p1 p2 -> RT a1 a2 -> shp (build_candidates_with_curvature W n p1 a1) (build_candidates_with_curvature W n p2 a2) (Forall2 RT).
  Proof.
    induction n as [|n IH]; intros p1 p2 a1 a2 HP HA; cbn [build_candidates_with_curvature]; [apply shp_ret; constructor; [exact HP|constructor]|].
    eapply shp_bind; [apply ecc_add_shp; assumption|]. intros [? ?] [? ?] [? ?]. cbn [fst snd] in *. eapply shp_bind; [apply curvature_shp; assumption|intros ? ? ?].
    eapply shp_bind; [apply IH; rel|intros ? ? ?]. apply shp_ret. constructor; assumption.
  Qed.
  Lemma halve_shp b1 b2 : RA b1 b2 -> forall n l1 l2, length l1 <= n -> Forall2 RT l1 l2 -> shp (halve W b1 l1) (halve W b2 l2) (Forall2 RT).
  Proof.
    intros HB. induction n as [|n IH]; intros l1 l2 Hn H.
    - destruct H; [apply shp_ret; constructor|cbn in Hn; lia].
    - destruct H as [|? ? ? ? H1 [|? ? ? ? H2 H]]; [apply shp_ret; constructor|apply shp_ret; constructor|]. cbn [halve].
      eapply shp_bind; [apply bpc_shp; assumption|intros ? ? ?]. eapply shp_bind; [apply IH; [cbn in Hn; lia|exact H]|intros ? ? ?]. apply shp_ret. constructor; assumption.
  Qed.
  Lemma pick_shp bs1 bs2 : Forall2 RA bs1 bs2 -> forall c1 c2, Forall2 RT c1 c2 -> shp (pick_candidate W c1 bs1) (pick_candidate W c2 bs2) RT.
  Proof.
    induction 1 as [|b1 b2 bs1 bs2 HB H IH]; intros c1 c2 HC; cbn [pick_candidate]; [apply shp_at; exact HC|].
    eapply shp_bind; [eapply halve_shp; [exact HB|apply Nat.le_refl|exact HC]|intros ? ? ?]. apply IH. assumption.
  Qed.
  Lemma rdouble_shp n : forall a1 a2, RT a1 a2 -> shp (repeat_double W n a1) (repeat_double W n a2) RT.
  Proof.
    induction n as [|n IH]; intros a1 a2 H; cbn [repeat_double]; [apply shp_ret; exact H|]. eapply shp_bind; [apply ecc_double_shp; assumption|intros ? ? ?]. apply IH. rel.
  Qed.
  Lemma mul_loop_shp w1 w2 : RW w1 w2 -> forall c1 c2 a1 a2, Forall2 RT c1 c2 -> RT a1 a2 -> shp (mul_loop W c1 w1 a1) (mul_loop W c2 w2 a2) RT.
  Proof.
    induction 1 as [|b1 b2 w1 w2 HB H IH]; intros c1 c2 a1 a2 HC HA; cbn [mul_loop]; [apply shp_ret; exact HA|].
    eapply shp_bind; [apply rdouble_shp; assumption|intros ? ? ?]. eapply shp_bind; [apply pick_shp; assumption|intros ? ? ?].
    eapply shp_bind; [apply ecc_add_shp; assumption|intros ? ? ?]. apply IH; rel.
  Qed.
  Lemma ecc_mul_shp a1 a2 s1 s2 : RT a1 a2 -> RA s1 s2 -> shp (ecc_mul W a1 s1) (ecc_mul W a2 s2) RT.
  Proof.
    intros HA HS. unfold ecc_mul. eapply shp_bind; [apply decompose_shp; exact HS|intros w1 w2 HW]. eapply shp_bind; [apply identity_shp|intros ? ? ?].
    eapply shp_bind; [apply cands_shp; assumption|intros ? ? ?]. cbv zeta. destruct HW as [|? ? ? ? H1 H2]; [apply shp_panic_l|].
    eapply shp_bind; [apply pick_shp; [exact H1|constructor; assumption]|intros ? ? ?]. apply mul_loop_shp; [exact H2|constructor; assumption|assumption].
  Qed.
  Definition RQ := both (Forall2 RT) RW.
  Lemma inner_shp ps1 ps2 : Forall2 RQ ps1 ps2 -> forall wi a1 a2, RO RT a1 a2 -> shp (shamir_inner W ps1 wi a1) (shamir_inner W ps2 wi a2) RT.
  Proof.
    induction 1 as [|[c1 w1] [c2 w2] ps1 ps2 [HC HW] H IH]; intros wi a1 a2 HA; cbn [shamir_inner fst snd] in *.
    - destruct a1, a2; cbn in HA; try contradiction; [apply shp_ret; exact HA|apply shp_panic_l].
    - eapply shp_bind; [eapply shp_at; exact HW|intros ? ? ?]. eapply shp_bind; [apply pick_shp; assumption|intros ? ? ?].
      destruct a1, a2; cbn in HA; try contradiction; [|apply IH; assumption].
      eapply shp_bind; [apply ecc_add_shp; assumption|intros ? ? ?]. apply IH. rel.
  Qed.
  Lemma shamir_loop_shp ps1 ps2 : Forall2 RQ ps1 ps2 -> forall wis a1 a2, RO RT a1 a2 -> shp (shamir_loop W ps1 wis a1) (shamir_loop W ps2 wis a2) RT.
  Proof.
    intros H. induction wis as [|wi wis IH]; intros a1 a2 HA; cbn [shamir_loop].
    - destruct a1, a2; cbn in HA; try contradiction; [apply shp_ret; exact HA|apply shp_panic_l].
    - eapply shp_bind; [apply inner_shp; [exact H|exact I]|intros ? ? ?].
      destruct a1, a2; cbn in HA; try contradiction; [|apply IH; assumption].
      eapply shp_bind; [apply rdouble_shp; assumption|intros ? ? ?]. eapply shp_bind; [apply ecc_add_shp; assumption|intros ? ? ?]. apply IH. rel.
  Qed.
  Lemma shamir_shp p1 p2 s1 s2 : Forall2 RT p1 p2 -> Forall2 RA s1 s2 -> shp (shamir W p1 s1) (shamir W p2 s2) RT.
  Proof.
    intros HP HS. unfold shamir. eapply shp_bind; [apply shp_guard|intros ? ? ?]. eapply shp_bind; [eapply shp_bmap; [exact HS|intros ? ? ?; apply decompose_shp; assumption]|intros w1 w2 HW].
    eapply shp_bind; [apply identity_shp|intros i1 i2 HI]. eapply shp_bind.
    { apply (shp_bmap RT (Forall2 RT)); [exact HP|]. intros a b Hab. eapply shp_bind; [apply candsc_shp; exact Hab|intros ? ? ?]. apply shp_ret. constructor; [exact HI|eassumption]. }
    intros c1 c2 HC. eapply shp_bind; [eapply shp_at; exact HW|intros x y Hx]. rewrite (F2_len _ _ _ Hx). apply shamir_loop_shp; [apply F2_combine; assumption|exact I].
  Qed.
  Lemma cml_shp i1 i2 : RT i1 i2 -> forall w1 w2, RW w1 w2 -> forall base a1 a2, RO RT a1 a2 -> shp (constant_mul_loop (W := W) i1 w1 base a1) (constant_mul_loop i2 w2 base a2) RT.
  Proof.
    intros HI. induction 1 as [|b1 b2 w1 w2 HB H IH]; intros base a1 a2 HA; cbn [constant_mul_loop].
    - destruct a1, a2; cbn in HA; try contradiction; [apply shp_ret; exact HA|apply shp_panic_l].
    - do 3 (eapply shp_bind; [apply const_pointc_shp|intros ? ? ?]). eapply shp_bind; [eapply shp_at; exact HB|intros ? ? ?].
      do 2 (eapply shp_bind; [apply bpc_shp; assumption|intros ? ? ?]). eapply shp_bind; [eapply shp_at; exact HB|intros ? ? ?].
      eapply shp_bind; [apply bpc_shp; assumption|intros ? ? ?]. cbv zeta.
      destruct a1, a2; cbn in HA; try contradiction; [|apply IH; assumption].
      eapply shp_bind; [apply ecc_add_shp; assumption|intros ? ? ?]. apply IH. rel.
  Qed.
  Lemma constant_mul_shp (P : point W) s1 s2 : RA s1 s2 -> shp (constant_mul P s1) (constant_mul P s2) RT.
  Proof.
    intros HS. unfold constant_mul. eapply shp_bind; [apply decompose_shp; exact HS|intros ? ? ?]. eapply shp_bind; [apply const_pointc_shp|intros ? ? ?].
    apply cml_shp; [assumption|apply F2_rev; assumption|exact I].
  Qed.

  (** ** The sponge *)
  Variable sp : pspec N.
  Variables T RATE : nat.
  Local Notation chip := (circuit_chip N).
  Definition RH (p q : pstate N chip) : Prop := Forall2 RA (ps_s p) (ps_s q) /\ Forall2 RA (ps_absorbing p) (ps_absorbing q).
  Lemma clen (l1 l2 : list (cV chip)) : Forall2 RA l1 l2 -> length l1 = length l2.
  Proof. apply F2_len. Qed.
  Lemma cmap_shp {X X' Y Y'} (Q : X -> X' -> Prop) (R : Y -> Y' -> Prop) (f : X -> B N Y) (g : X' -> B N Y') l1 l2 :
    Forall2 Q l1 l2 -> (forall a b, Q a b -> shp (f a) (g b) R) -> shp (cmap N chip f l1) (cmap N chip g l2) (Forall2 R).
  Proof.
    intros H K. induction H; cbn [cmap]; [apply shp_ret; constructor|].
    eapply shp_bind; [apply K; exact H|]. intros a1 a2 Ha. eapply shp_bind; [exact IHForall2|]. intros b1 b2 Hb. apply shp_ret. constructor; assumption.
  Qed.
  Lemma cfold_shp {X X' Y Y'} (Q : X -> X' -> Prop) (R : Y -> Y' -> Prop) (f : Y -> X -> B N Y) (g : Y' -> X' -> B N Y') l1 l2 :
    Forall2 Q l1 l2 -> (forall y y' a b, R y y' -> Q a b -> shp (f y a) (g y' b) R) -> forall y y', R y y' -> shp (cfold N chip f l1 y) (cfold N chip g l2 y') R.
  Proof.
    intros H K. induction H; intros y0 y0' HR; cbn [cfold]; [apply shp_ret; exact HR|]. eapply shp_bind; [apply K; eassumption|]. intros a1 a2 Ha. apply IHForall2. exact Ha.
  Qed.
  Lemma csum_shp a1 a2 k : Forall2 RA a1 a2 -> shp (c_sum_with_constant N chip a1 k) (c_sum_with_constant N chip a2 k) RA.
  Proof. intros H. unfold c_sum_with_constant. apply swc_shp. eapply F2_map; [exact H|]. intros a b Hab. split; [exact Hab|reflexivity]. Qed.
  Lemma pow5_shp x y k : RA x y -> shp (x_power5_with_constant N chip x k) (x_power5_with_constant N chip y k) RA.
  Proof.
    intros H. unfold x_power5_with_constant. eapply shp_bind; [apply mul_shp; exact H|intros ? ? ?]. eapply shp_bind; [apply mul_shp; assumption|intros ? ? ?]. apply mulc_shp; assumption.
  Qed.
  Lemma sbox_full_shp s1 s2 : Forall2 RA s1 s2 -> forall cs, shp (sbox_full N chip s1 cs) (sbox_full N chip s2 cs) (Forall2 RA).
  Proof.
    induction 1; intros cs; cbn [sbox_full]; [apply shp_ret; constructor|]. destruct cs; [apply shp_ret; constructor; assumption|].
    eapply shp_bind; [apply pow5_shp; assumption|intros ? ? ?]. eapply shp_bind; [apply IHForall2|intros ? ? ?]. apply shp_ret. constructor; assumption.
  Qed.
  Lemma sbox_part_shp s1 s2 k : Forall2 RA s1 s2 -> shp (sbox_part N chip s1 k) (sbox_part N chip s2 k) (Forall2 RA).
  Proof.
    intros H. destruct H; cbn [sbox_part]; [apply shp_panic_l|]. eapply shp_bind; [apply pow5_shp; assumption|intros ? ? ?]. apply shp_ret. constructor; assumption.
  Qed.
  Lemma absorb_inputs_shp s1 s2 : Forall2 RA s1 s2 -> forall cs i1 i2, Forall2 RA i1 i2 -> shp (absorb_inputs N chip s1 cs i1) (absorb_inputs N chip s2 cs i2) (Forall2 RA).
  Proof.
    induction 1; intros cs i1 i2 HI; cbn [absorb_inputs]; [apply shp_ret; constructor|]. destruct cs; [apply shp_ret; constructor; assumption|].
    destruct HI; [apply shp_ret; constructor; assumption|].
    eapply shp_bind; [apply csum_shp; rel|intros ? ? ?]. eapply shp_bind; [apply IHForall2; assumption|intros ? ? ?]. apply shp_ret. constructor; assumption.
  Qed.
  Lemma absorb_padding_shp s1 s2 : Forall2 RA s1 s2 -> forall i cs, shp (absorb_padding N chip i s1 cs) (absorb_padding N chip i s2 cs) (Forall2 RA).
  Proof.
    induction 1; intros i cs; cbn [absorb_padding]; [apply shp_ret; constructor|]. destruct cs; [apply shp_ret; constructor; assumption|].
    eapply shp_bind; [apply csum_shp; rel|intros ? ? ?]. eapply shp_bind; [apply IHForall2; assumption|intros ? ? ?]. apply shp_ret. constructor; assumption.
  Qed.
  Lemma absorb_shp s1 s2 i1 i2 cs : Forall2 RA s1 s2 -> Forall2 RA i1 i2 ->
    shp (absorb_with_pre_constants N chip T s1 i1 cs) (absorb_with_pre_constants N chip T s2 i2 cs) (Forall2 RA).
  Proof.
    intros HS HI. unfold absorb_with_pre_constants. rewrite (clen _ _ HI). destruct (_ <? _)%nat; [|apply shp_panic_l]. cbv zeta.
    destruct HS; [apply shp_panic_l|]. destruct cs; [apply shp_panic_l|].
    eapply shp_bind; [apply csum_shp; rel|intros ? ? ?]. eapply shp_bind; [apply absorb_inputs_shp; assumption|intros ? ? ?].
    eapply shp_bind; [apply absorb_padding_shp; apply F2_skipn; constructor; assumption|intros ? ? ?]. apply shp_ret.
    apply Forall2_app; [apply F2_firstn; constructor; assumption|assumption].
  Qed.
  Lemma mds_shp s1 s2 m : Forall2 RA s1 s2 -> shp (apply_mds N chip s1 m) (apply_mds N chip s2 m) (Forall2 RA).
  Proof.
    intros H. unfold apply_mds. eapply cmap_shp; [apply F2_same|]. intros r ? <-. apply swc_shp. apply F2_combine; [exact H|apply F2_same].
  Qed.
  Lemma sparse_shp s1 s2 m : Forall2 RA s1 s2 -> shp (apply_sparse_mds N chip s1 m) (apply_sparse_mds N chip s2 m) (Forall2 RA).
  Proof.
    intros H. unfold apply_sparse_mds. destruct H as [|x y l1 l2 Hx H]; [apply shp_panic_l|].
    eapply shp_bind; [apply swc_shp, F2_combine; [constructor; assumption|apply F2_same]|intros ? ? ?].
    eapply (shp_bind _ _ _ _ (Forall2 RA)).
    - eapply cmap_shp; [apply F2_combine; [apply F2_same|exact H]|]. intros [e a] [e' b] [He Hab]. cbn [fst snd] in *. subst e'. apply swc_shp. rel2.
    - intros r1 r2 Hr. cbv zeta. apply shp_ret. assert (K : Forall2 RA (a1 :: r1) (a2 :: r2)) by (constructor; assumption).
      rewrite (clen _ _ K). apply Forall2_app; [exact K|]. apply F2_skipn. constructor; assumption.
  Qed.
  Lemma permutation_shp s1 s2 i1 i2 : Forall2 RA s1 s2 -> Forall2 RA i1 i2 -> shp (permutation N chip sp T s1 i1) (permutation N chip sp T s2 i2) (Forall2 RA).
  Proof.
    intros HS HI. unfold permutation. cbv zeta. destruct (sp_start sp) as [|c0 cs]; [apply shp_panic_l|]. destruct (sp_r_f sp / 2)%nat; [apply shp_panic_l|].
    assert (FULL : forall y y' a b, Forall2 RA y y' -> a = b ->
      shp (bind (sbox_full N chip y a) (fun s => apply_mds N chip s (sp_mds sp))) (bind (sbox_full N chip y' b) (fun s => apply_mds N chip s (sp_mds sp))) (Forall2 RA)).
    { intros y y' a b Hy <-. eapply shp_bind; [apply sbox_full_shp; exact Hy|intros ? ? ?]. apply mds_shp. assumption. }
    eapply shp_bind; [apply absorb_shp; eassumption|intros ? ? ?]. eapply shp_bind; [eapply cfold_shp; [apply F2_same|exact FULL|assumption]|intros ? ? ?].
    eapply shp_bind; [apply sbox_full_shp; assumption|intros ? ? ?]. eapply shp_bind; [apply mds_shp; assumption|intros ? ? ?].
    eapply (shp_bind _ _ _ _ (Forall2 RA)).
    { eapply cfold_shp; [apply F2_same| |eassumption]. intros y y' a b Hy <-. destruct a as [k m].
      eapply shp_bind; [apply sbox_part_shp; exact Hy|intros ? ? ?]. apply sparse_shp. assumption. }
    intros ? ? ?. eapply shp_bind; [eapply cfold_shp; [apply F2_same|exact FULL|assumption]|intros ? ? ?].
    eapply shp_bind; [apply sbox_full_shp; assumption|intros ? ? ?]. apply mds_shp. assumption.
  Qed.
  Lemma chunks_rel n k : forall l1 l2, Forall2 RA l1 l2 -> Forall2 (Forall2 RA) (chunks_aux n k l1) (chunks_aux n k l2).
  Proof.
    induction n as [|n IH]; intros l1 l2 H; cbn [chunks_aux]; [constructor|]. destruct H; [constructor|].
    constructor; [apply F2_firstn; constructor; assumption|]. apply IH. apply F2_skipn. constructor; assumption.
  Qed.
  Lemma squeeze_shp p q : RH p q -> shp (squeeze N chip sp T RATE p) (squeeze N chip sp T RATE q) (both RA RH).
  Proof.
    intros [HS HA]. unfold squeeze. eapply (shp_bind _ _ _ _ (both eq (Forall2 RA))).
    - eapply cfold_shp.
      + unfold chunks. rewrite (clen _ _ HA). apply chunks_rel. exact HA.
      + intros [n s] [n' s'] a b [_ Hs] Hab. cbn [fst snd] in *. cbv zeta. eapply shp_bind; [apply permutation_shp; eassumption|intros ? ? ?].
        apply shp_ret. split; [exact (f_equal (fun n => RATE - n)%nat (F2_len _ _ _ Hab))|assumption].
      + split; [reflexivity|exact HS].
    - intros [n s] [n' s'] [Hn Hs]. cbn [fst snd] in *. subst n'. eapply (shp_bind _ _ _ _ (Forall2 RA)).
      + destruct (n =? 0)%nat; [apply permutation_shp; [exact Hs|constructor]|apply shp_ret; exact Hs].
      + intros t1 t2 Ht. destruct Ht as [|? ? ? ? H1 [|? ? ? ? H2 H3]]; [apply shp_panic_l|apply shp_panic_l|]. cbn [nth_error].
        apply shp_ret. split; [exact H2|]. split; [constructor; [exact H1|constructor; assumption]|constructor].
  Qed.
  Lemma new_shp init : shp (poseidon_new N chip init) (poseidon_new N chip init) RH.
  Proof.
    unfold poseidon_new. eapply shp_bind; [eapply cmap_shp; [apply F2_same|]; intros a ? <-; apply const_shp|]. intros x y Hx. apply shp_ret. split; [exact Hx|constructor].
  Qed.
  Lemma update_rel p q e1 e2 : RH p q -> Forall2 RA e1 e2 -> RH (update N chip p e1) (update N chip q e2).
  Proof. intros [H1 H2] HE. split; [exact H1|]. cbn. apply Forall2_app; assumption. Qed.
End Shape.
