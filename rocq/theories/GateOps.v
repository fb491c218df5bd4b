(** Contracts of the individual base gate operations. *)
From Coq Require Import ZArith Arith Lia List Bool Ring Field.
From Verif Require Import Util Algebra PField Gate GateProofs.
Import ListNotations.
Local Open Scope fld_scope.

Section Ops.
  Variable N : PF.
  Add Field NF : (f_th N).
  Implicit Types (w : asg N) (c : ctx N) (a b d : aval N).

  Lemma row_at_snd w ps k ms i (P : aval N -> Prop) :
    (forall r, let ps := resize VAR_COLUMNS pair_empty ps in
               copied N w r 0 ps ->
               k + dot w r 0 (map snd ps) + muls w r 0 (resize MUL_COLUMNS 0 ms) = 0 ->
               forall a, nth_error (cells_of r 0 ps) i = Some a -> P a) ->
    snd_ w (bind (one_line ps k ms 0) (fun cells => at_ cells i)) P.
  Proof.
    intro H. eapply snd_bind.
    { apply one_line_snd with (P := fun cells => forall a, nth_error cells i = Some a -> P a).
      intros r ps' H1 H2. exact (H r H1 H2). }
    intro cells. apply snd_at. auto.
  Qed.

  (** the equation the values of a row must satisfy *)
  Definition row_ok (ps : list (vschema N * N)) k ms : Prop :=
    let ps := resize VAR_COLUMNS pair_empty ps in
    let vs := map (fun p => vs_val (fst p)) ps in
    k + vdot N vs (map snd ps) + vmuls N vs (resize MUL_COLUMNS 0 ms) = 0.

  Lemma row_cpl c ps k ms :
    (length ps <= VAR_COLUMNS)%nat -> (length ms <= MUL_COLUMNS)%nat -> in_valid N c ps -> row_ok ps k ms ->
    cpl c (one_line ps k ms 0)
      (fun cells c' => cells = cells_of (offset c) 0 (resize VAR_COLUMNS pair_empty ps) /\ Forall (valid c') cells).
  Proof.
    intros H1 H2 Hv He Hg.
    assert (Hx : forall t, exists c', one_line ps k ms 0 c = Some (cells_of (offset c) 0 (resize VAR_COLUMNS pair_empty ps), c')
       /\ ctx_le c c' /\ goodp t c' /\ offset c' = S (offset c) /\
       Forall (valid c') (cells_of (offset c) 0 (resize VAR_COLUMNS pair_empty ps))).
    { intro t. apply one_line_cpl_gen; auto; [now apply good_goodp|]. refine (eq_trans _ He). ring. }
    destruct (Hx 0) as (c' & E & L & _ & _ & V). exists (cells_of (offset c) 0 (resize VAR_COLUMNS pair_empty ps)), c'.
    repeat split; auto; try apply L. apply goodp_all. intro t. destruct (Hx t) as (c2 & E2 & _ & G2 & _).
    rewrite E in E2. injection E2 as ->. exact G2.
  Qed.

  Lemma row_at_cpl c ps k ms i s kk :
    (length ps <= VAR_COLUMNS)%nat -> (length ms <= MUL_COLUMNS)%nat -> in_valid N c ps -> row_ok ps k ms ->
    nth_error ps i = Some (s, kk) ->
    cpl c (bind (one_line ps k ms 0) (fun cells => at_ cells i)) (fun a c' => valid c' a /\ av_val a = vs_val s).
  Proof.
    intros H1 H2 Hv He Hn. eapply cpl_bind; [now apply row_cpl|].
    intros cells c' _ _ _ [-> Hc].
    assert (Hi : nth_error (resize VAR_COLUMNS pair_empty ps) i = Some (s, kk)).
    { rewrite resize_small by assumption. rewrite nth_error_app1; [assumption|].
      apply nth_error_Some. congruence. }
    assert (Hcell : forall (l : list (vschema N * N)) r i j, nth_error l j = Some (s, kk) ->
              nth_error (cells_of r i l) j = Some (AV (r, (i + j)%nat) (vs_val s))).
    { induction l as [|[s' k'] l IH]; intros r i0 [|j] Hj; cbn in *; try discriminate.
      - injection Hj as -> ->. now rewrite Nat.add_0_r.
      - rewrite (IH _ _ _ Hj). do 3 f_equal. lia. }
    specialize (Hcell _ (offset c) 0%nat i Hi). eapply cpl_at; [exact Hcell|].
    split; [|reflexivity]. apply (proj1 (Forall_forall _ _) Hc). eapply nth_error_In; eauto.
  Qed.

  Lemma cpl_bind_at c {A A'} (l : list A) i x (k : A -> B N A') (Q : A' -> ctx N -> Prop) :
    nth_error l i = Some x -> cpl c (k x) Q -> cpl c (bind (at_ l i) k) Q.
  Proof. intros E H. unfold cpl, bind, at_. rewrite E. exact H. Qed.
  Lemma row_unit_snd w ps k ms (P : unit -> Prop) :
    (forall r, let ps := resize VAR_COLUMNS pair_empty ps in
               copied N w r 0 ps ->
               k + dot w r 0 (map snd ps) + muls w r 0 (resize MUL_COLUMNS 0 ms) = 0 -> P tt) ->
    snd_ w (bind (one_line ps k ms 0) (fun _ => ret tt)) P.
  Proof.
    intro H. eapply snd_bind.
    { apply one_line_snd with (P := fun _ => P tt). intros r ps' H1 H2. exact (H r H1 H2). }
    intro cells. apply snd_ret. auto.
  Qed.
  Lemma row_unit_cpl c ps k ms :
    (length ps <= VAR_COLUMNS)%nat -> (length ms <= MUL_COLUMNS)%nat -> in_valid N c ps -> row_ok ps k ms ->
    cpl c (bind (one_line ps k ms 0) (fun _ => ret tt)) (fun _ _ => True).
  Proof. intros. eapply cpl_bind; [now apply row_cpl|]. intros. now apply cpl_ret. Qed.
End Ops.

(** open a row contract: [Hrow] is the gate equation, copies are rewritten *)
Ltac row_snd :=
  first [apply row_at_snd | apply row_unit_snd];
  let r := fresh "r" in let Hc := fresh "Hc" in
  intros r; cbn -[pf fadd fmul fopp f0 f1 fsub];
  intros Hc Hrow;
  try (intros ? [= <-]; cbn [av_cell]);
  repeat (lazymatch type of Hc with
          | _ /\ _ => let H := fresh "Hcp" in let H' := fresh "Hc" in
                      destruct Hc as [H H']; try rewrite H in *; clear H; rename H' into Hc
          | _ => fail
          end);
  clear Hc.
Ltac valids := unfold in_valid; repeat (apply Forall_cons; [cbn [fst]; first [exact I|assumption]|]); apply Forall_nil.
Ltac row_side :=
  [> cbn; unfold VAR_COLUMNS; lia|cbn; unfold MUL_COLUMNS; lia|try valids
  |unfold row_ok; cbn -[pf fadd fmul fopp f0 f1 fsub]|try reflexivity ..].
Ltac row_cpl :=
  first [ eapply cpl_conseq; [eapply row_at_cpl; row_side|
            cbn [vs_val]; intros ? ? _ _ _ [? ->]; split; [assumption|reflexivity]]
        | eapply row_unit_cpl; row_side].

Section OpLemmas.
  Variable N : PF.
  Add Field NFo : (f_th N).
  Implicit Types (w : asg N) (c : ctx N) (a b d : aval N).

  (** *** add, sub, not *)
  Lemma add_snd w a b : snd_ w (add a b) (fun r => w (av_cell r) = w (av_cell a) + w (av_cell b)).
  Proof. eapply snd_conseq; [apply sum_with_constant_snd|]. intros r ->. cbn. ring. Qed.
  Lemma add_constant_snd w a k : snd_ w (add_constant a k) (fun r => w (av_cell r) = w (av_cell a) + k).
  Proof. eapply snd_conseq; [apply sum_with_constant_snd|]. intros r ->. cbn. ring. Qed.
  Lemma sub_snd w a b : snd_ w (sub a b) (fun r => w (av_cell r) = w (av_cell a) - w (av_cell b)).
  Proof. eapply snd_conseq; [apply sum_with_constant_snd|]. intros r ->. cbn. ring. Qed.
  Lemma not_snd w a : snd_ w (not_ a) (fun r => w (av_cell r) = 1 - w (av_cell a)).
  Proof. eapply snd_conseq; [apply sum_with_constant_snd|]. intros r ->. cbn. ring. Qed.

  (** *** single-row operations *)
  Lemma mul_snd w a b : snd_ w (mul a b) (fun r => w (av_cell r) = w (av_cell a) * w (av_cell b)).
  Proof. unfold mul. row_snd. apply (eq_by N (- (1)) _ _ _ Hrow). ring. Qed.
  Lemma mul_add_constant_snd w a b k :
    snd_ w (mul_add_constant a b k) (fun r => w (av_cell r) = w (av_cell a) * w (av_cell b) + k).
  Proof. unfold mul_add_constant. row_snd. apply (eq_by N (- (1)) _ _ _ Hrow). ring. Qed.
  Lemma mul_add_snd w a b d k :
    snd_ w (mul_add a b d k) (fun r => w (av_cell r) = w (av_cell a) * w (av_cell b) + w (av_cell d) * k).
  Proof. unfold mul_add. row_snd. apply (eq_by N (- (1)) _ _ _ Hrow). ring. Qed.
  Lemma mul_add2_snd w a b d k e l :
    snd_ w (mul_add2 a b d k e l)
      (fun r => w (av_cell r) = w (av_cell a) * w (av_cell b) + w (av_cell d) * k + w (av_cell e) * l).
  Proof. unfold mul_add2. row_snd. apply (eq_by N (- (1)) _ _ _ Hrow). ring. Qed.
  Lemma assign_constant_snd w v : snd_ w (assign_constant v) (fun r => w (av_cell r) = v).
  Proof. unfold assign_constant, one_line_add. row_snd. apply (eq_by N (- (1)) _ _ _ Hrow). ring. Qed.
  Lemma assign_snd w v : snd_ w (assign v) (fun _ => True).
  Proof. unfold assign, one_line_add. row_snd. exact I. Qed.
  Lemma assert_equal_snd w a b : snd_ w (assert_equal a b) (fun _ => w (av_cell a) = w (av_cell b)).
  Proof. unfold assert_equal, one_line_add. row_snd. apply (eq_by N (- (1)) _ _ _ Hrow). ring. Qed.
  Lemma assert_constant_snd w a k : snd_ w (assert_constant a k) (fun _ => w (av_cell a) = k).
  Proof. unfold assert_constant, one_line_add. row_snd. apply (eq_by N (- (1)) _ _ _ Hrow). ring. Qed.
  Lemma assert_bit_snd w a : snd_ w (assert_bit a) (fun _ => w (av_cell a) = 0 \/ w (av_cell a) = 1).
  Proof.
    unfold assert_bit. row_snd.
    assert (H : w (av_cell a) * (1 - w (av_cell a)) = 0) by (refine (eq_trans _ Hrow); ring).
    apply fmul_integral in H. destruct H as [H|H]; [now left|right]. symmetry. now apply fsub_eq0.
  Qed.
  Lemma or_snd w a b :
    snd_ w (or_ a b) (fun r => w (av_cell r) = w (av_cell a) + w (av_cell b) - w (av_cell a) * w (av_cell b)).
  Proof. unfold or_. row_snd. apply (eq_by N (- (1)) _ _ _ Hrow). ring. Qed.
  Lemma xor_snd w a b :
    snd_ w (xor_ a b) (fun r => w (av_cell r) = w (av_cell a) + w (av_cell b) - (1 + 1) * w (av_cell a) * w (av_cell b)).
  Proof. unfold xor_. row_snd. apply (eq_by N (- (1)) _ _ _ Hrow). ring. Qed.
  Lemma xnor_snd w a b :
    snd_ w (xnor_ a b) (fun r => w (av_cell r) = 1 - w (av_cell a) - w (av_cell b) + (1 + 1) * w (av_cell a) * w (av_cell b)).
  Proof. unfold xnor_. row_snd. apply (eq_by N (- (1)) _ _ _ Hrow). ring. Qed.
  Lemma bisec_snd w s a b :
    snd_ w (bisec s a b)
      (fun r => w (av_cell r) = w (av_cell s) * w (av_cell a) + (1 - w (av_cell s)) * w (av_cell b)).
  Proof. unfold bisec. row_snd. apply (eq_by N (- (1)) _ _ _ Hrow). ring. Qed.

  Lemma invert_unsafe_snd w a :
    snd_ w (invert_unsafe a) (fun r => w (av_cell a) * w (av_cell r) = 1).
  Proof.
    unfold invert_unsafe. destruct (feq_dec (av_val a) 0); [apply snd_panic|]. row_snd.
    apply (eq_by N 1 _ _ _ Hrow). ring.
  Qed.
  Lemma div_unsafe_snd w a b :
    snd_ w (div_unsafe a b) (fun r => w (av_cell b) * w (av_cell r) = w (av_cell a)).
  Proof.
    unfold div_unsafe. destruct (feq_dec (av_val b) 0); [apply snd_panic|]. row_snd.
    apply (eq_by N 1 _ _ _ Hrow). ring.
  Qed.

  Lemma invert_snd w a :
    snd_ w (invert a)
      (fun r => (w (av_cell a) = 0 -> w (av_cell (fst r)) = 1) /\
                (w (av_cell a) <> 0 -> w (av_cell (fst r)) = 0 /\ w (av_cell a) * w (av_cell (Datatypes.snd r)) = 1)).
  Proof.
    unfold invert. eapply snd_bind.
    { apply one_line_snd with (P := fun cells => exists x y, nth_error cells 1 = Some y /\ nth_error cells 0 = Some x /\
        w (av_cell a) * w (av_cell y) = 0).
      intros r. cbn -[pf fadd fmul fopp f0 f1 fsub]. intros [H1 _] He. eexists _, _.
      split; [reflexivity|]. split; [reflexivity|]. cbn [av_cell]. rewrite <- H1. refine (eq_trans _ He). ring. }
    intro cells. eapply snd_bind; [apply snd_at; intros y Hy; exact Hy|]. intro y.
    eapply snd_bind.
    { apply one_line_snd with (P := fun cells => exists i z, nth_error cells 1 = Some i /\ nth_error cells 2 = Some z /\
        w (av_cell z) = w (av_cell y) /\ w (av_cell a) * w (av_cell i) + w (av_cell z) = 1).
      intros r. cbn -[pf fadd fmul fopp f0 f1 fsub]. intros (H1 & H2 & _) He. eexists _, _.
      split; [reflexivity|]. split; [reflexivity|]. cbn [av_cell]. split; [assumption|].
      rewrite H2, <- H1. apply (eq_by N 1 _ _ _ He). rewrite H2. ring. }
    intro cells2. eapply snd_bind; [apply snd_at; intros z Hz; exact Hz|]. intro z.
    eapply snd_bind; [apply snd_at; intros i Hi; exact Hi|]. intro i.
    apply snd_ret. cbn [fst Datatypes.snd].
    intros Hi Hz (i' & z' & Hi' & Hz' & Hzy & He) Hy (x & y' & Hy' & _ & Hay).
    rewrite Hy in Hy'. injection Hy' as <-. rewrite Hz in Hz'. injection Hz' as <-. rewrite Hi in Hi'. injection Hi' as <-.
    rewrite <- Hzy in Hay. split.
    - intro Ha. rewrite Ha in He. refine (eq_trans _ He). ring.
    - intro Ha. apply fmul_integral in Hay. destruct Hay as [Hay|Hay]; [contradiction|].
      split; [assumption|]. rewrite Hay in He. refine (eq_trans _ He). ring.
  Qed.
  Lemma is_zero_snd w a :
    snd_ w (is_zero a) (fun r => (w (av_cell a) = 0 -> w (av_cell r) = 1) /\ (w (av_cell a) <> 0 -> w (av_cell r) = 0)).
  Proof.
    unfold is_zero. eapply snd_bind; [apply invert_snd|]. intros [f i]. apply snd_ret. cbn [fst Datatypes.snd].
    intros [H1 H2]. split; [assumption|]. intro Ha. now apply H2.
  Qed.

  (** sum of products, the five-column override *)
  Fixpoint msum w (ls : list (aval N * aval N * aval N * N)) : N :=
    match ls with
    | [] => 0
    | (a, b, d, k) :: ls => w (av_cell a) * w (av_cell b) + w (av_cell d) * k + msum w ls
    end.
  Lemma mul_add_fold_snd w ls : forall acc,
    snd_ w (mul_add_fold acc ls) (fun r => w (av_cell r) = w (av_cell acc) + msum w ls).
  Proof.
    induction ls as [|[[[a b] d] k] ls IH]; intro acc; cbn [mul_add_fold msum].
    - apply snd_ret. ring.
    - eapply snd_bind; [apply mul_add2_snd|]. intro acc'. eapply snd_conseq; [apply IH|].
      intros r -> ->. ring.
  Qed.
  Lemma mul_add_with_next_line_snd w ls :
    snd_ w (mul_add_with_next_line ls) (fun r => w (av_cell r) = msum w ls).
  Proof.
    destruct ls as [|[[[a b] d] k] ls]; [apply snd_panic|]. cbn [mul_add_with_next_line msum].
    eapply snd_bind; [apply mul_add_snd|]. intro acc. eapply snd_conseq; [apply mul_add_fold_snd|].
    intros r -> ->. ring.
  Qed.

  (** *** completeness *)
  Lemma add_cpl c a b : valid c a -> valid c b ->
    cpl c (add a b) (fun r c' => valid c' r /\ av_val r = av_val a + av_val b).
  Proof.
    intros Ha Hb. eapply cpl_conseq; [apply sum_with_constant_cpl|].
    - apply Forall_cons; [assumption|apply Forall_cons; [assumption|constructor]].
    - intros r c' _ _ _ [H ->]. split; [assumption|]. cbn. ring.
  Qed.
  Lemma add_constant_cpl c a k : valid c a ->
    cpl c (add_constant a k) (fun r c' => valid c' r /\ av_val r = av_val a + k).
  Proof.
    intros Ha. eapply cpl_conseq; [apply sum_with_constant_cpl|].
    - apply Forall_cons; [assumption|constructor].
    - intros r c' _ _ _ [H ->]. split; [assumption|]. cbn. ring.
  Qed.
  Lemma sub_cpl c a b : valid c a -> valid c b ->
    cpl c (sub a b) (fun r c' => valid c' r /\ av_val r = av_val a - av_val b).
  Proof.
    intros Ha Hb. eapply cpl_conseq; [apply sum_with_constant_cpl|].
    - apply Forall_cons; [assumption|apply Forall_cons; [assumption|constructor]].
    - intros r c' _ _ _ [H ->]. split; [assumption|]. cbn. ring.
  Qed.
  Lemma not_cpl c a : valid c a -> cpl c (not_ a) (fun r c' => valid c' r /\ av_val r = 1 - av_val a).
  Proof.
    intros Ha. eapply cpl_conseq; [apply sum_with_constant_cpl|].
    - apply Forall_cons; [assumption|constructor].
    - intros r c' _ _ _ [H ->]. split; [assumption|]. cbn. ring.
  Qed.
  Lemma mul_cpl c a b : valid c a -> valid c b ->
    cpl c (mul a b) (fun r c' => valid c' r /\ av_val r = av_val a * av_val b).
  Proof. intros Ha Hb. unfold mul. row_cpl. ring. Qed.
  Lemma mul_add_constant_cpl c a b k : valid c a -> valid c b ->
    cpl c (mul_add_constant a b k) (fun r c' => valid c' r /\ av_val r = av_val a * av_val b + k).
  Proof. intros Ha Hb. unfold mul_add_constant. row_cpl. ring. Qed.
  Lemma mul_add_cpl c a b d k : valid c a -> valid c b -> valid c d ->
    cpl c (mul_add a b d k) (fun r c' => valid c' r /\ av_val r = av_val a * av_val b + av_val d * k).
  Proof. intros Ha Hb Hd. unfold mul_add. row_cpl. ring. Qed.
  Lemma mul_add2_cpl c a b d k e l : valid c a -> valid c b -> valid c d -> valid c e ->
    cpl c (mul_add2 a b d k e l)
      (fun r c' => valid c' r /\ av_val r = av_val a * av_val b + av_val d * k + av_val e * l).
  Proof. intros Ha Hb Hd He. unfold mul_add2. row_cpl. ring. Qed.
  Lemma assign_constant_cpl c v : cpl c (assign_constant v) (fun r c' => valid c' r /\ av_val r = v).
  Proof. unfold assign_constant, one_line_add. row_cpl. ring. Qed.
  Lemma assign_cpl c v : cpl c (assign v) (fun r c' => valid c' r /\ av_val r = v).
  Proof. unfold assign, one_line_add. row_cpl. ring. Qed.
  Lemma assert_equal_cpl c a b : valid c a -> valid c b -> av_val a = av_val b ->
    cpl c (assert_equal a b) (fun _ _ => True).
  Proof. intros Ha Hb H. unfold assert_equal, one_line_add. row_cpl. rewrite H. ring. Qed.
  Lemma assert_constant_cpl c a k : valid c a -> av_val a = k -> cpl c (assert_constant a k) (fun _ _ => True).
  Proof. intros Ha <-. unfold assert_constant, one_line_add. row_cpl. ring. Qed.
  Lemma assert_bit_cpl c a : valid c a -> av_val a = 0 \/ av_val a = 1 -> cpl c (assert_bit a) (fun _ _ => True).
  Proof. intros Ha H. unfold assert_bit. row_cpl. destruct H as [-> | ->]; ring. Qed.
  Lemma or_cpl c a b : valid c a -> valid c b ->
    cpl c (or_ a b) (fun r c' => valid c' r /\ av_val r = av_val a + av_val b - av_val a * av_val b).
  Proof. intros Ha Hb. unfold or_. row_cpl. ring. Qed.
  Lemma xor_cpl c a b : valid c a -> valid c b ->
    cpl c (xor_ a b) (fun r c' => valid c' r /\ av_val r = av_val a + av_val b - (1 + 1) * av_val a * av_val b).
  Proof. intros Ha Hb. unfold xor_. row_cpl. ring. Qed.
  Lemma xnor_cpl c a b : valid c a -> valid c b ->
    cpl c (xnor_ a b) (fun r c' => valid c' r /\ av_val r = 1 - av_val a - av_val b + (1 + 1) * av_val a * av_val b).
  Proof. intros Ha Hb. unfold xnor_. row_cpl. ring. Qed.
  Lemma bisec_cpl c s a b : valid c s -> valid c a -> valid c b ->
    cpl c (bisec s a b) (fun r c' => valid c' r /\ av_val r = av_val s * av_val a + (1 - av_val s) * av_val b).
  Proof. intros Hs Ha Hb. unfold bisec. row_cpl. ring. Qed.
  Lemma invert_unsafe_cpl c a : valid c a -> av_val a <> 0 ->
    cpl c (invert_unsafe a) (fun r c' => valid c' r /\ av_val r = finv (av_val a)).
  Proof.
    intros Ha Hn. unfold invert_unsafe. destruct (feq_dec (av_val a) 0); [contradiction|].
    row_cpl. field. assumption.
  Qed.
  Lemma div_unsafe_cpl c a b : valid c a -> valid c b -> av_val b <> 0 ->
    cpl c (div_unsafe a b) (fun r c' => valid c' r /\ av_val r = finv (av_val b) * av_val a).
  Proof.
    intros Ha Hb Hn. unfold div_unsafe. destruct (feq_dec (av_val b) 0); [contradiction|].
    row_cpl. field. assumption.
  Qed.

  Lemma invert_cpl c a : valid c a ->
    cpl c (invert a)
      (fun r c' => valid c' (fst r) /\ valid c' (Datatypes.snd r) /\
                   av_val (fst r) = (if feq_dec (av_val a) 0 then 1 else 0) /\
                   av_val (Datatypes.snd r) = inv_or0 (av_val a)).
  Proof.
    intros Ha. unfold invert.
    assert (Hc : 1 - av_val a * inv_or0 (av_val a) = (if feq_dec (av_val a) 0 then 1 else 0)).
    { unfold inv_or0. destruct (feq_dec (av_val a) 0); [ring|field; assumption]. }
    eapply cpl_bind.
    { apply row_cpl; [cbn; unfold VAR_COLUMNS; lia|cbn; unfold MUL_COLUMNS; lia|valids|].
      unfold row_ok; cbn -[pf fadd fmul fopp f0 f1 fsub]. rewrite Hc.
      destruct (feq_dec (av_val a) 0) as [E|E]; [rewrite E|]; ring. }
    intros cells c1 _ L1 G1 [-> V1]. cbn [VAR_COLUMNS resize firstn app repeat Nat.sub length cells_of] in *.
    eapply cpl_bind_at; [reflexivity|].
    set (y := AV (offset c, 1%nat) _ : aval N).
    assert (Hy : valid c1 y).
    { apply Forall_cons_iff in V1. destruct V1 as [_ V1]. apply Forall_cons_iff in V1. apply V1. }
    assert (Hyv : av_val y = 1 - av_val a * inv_or0 (av_val a)) by reflexivity.
    clearbody y.
    pose proof (valid_le N _ _ _ L1 Ha) as Ha1.
    eapply cpl_bind.
    { apply row_cpl; [cbn; unfold VAR_COLUMNS; lia|cbn; unfold MUL_COLUMNS; lia|valids|].
      unfold row_ok; cbn -[pf fadd fmul fopp f0 f1 fsub]. rewrite Hyv. ring. }
    intros cells c2 _ L2 G2 [-> V2]. cbn [VAR_COLUMNS resize firstn app repeat Nat.sub length cells_of] in *.
    eapply cpl_bind_at; [reflexivity|]. eapply cpl_bind_at; [reflexivity|].
    apply cpl_ret. cbn [fst Datatypes.snd].
    apply Forall_cons_iff in V2. destruct V2 as [_ V2]. apply Forall_cons_iff in V2. destruct V2 as [Vi V2].
    apply Forall_cons_iff in V2. destruct V2 as [Vz _].
    repeat split; try assumption; try apply Vi; try apply Vz. cbn [av_val vs_val]. now rewrite Hyv.
  Qed.
  Lemma is_zero_cpl c a : valid c a ->
    cpl c (is_zero a) (fun r c' => valid c' r /\ av_val r = (if feq_dec (av_val a) 0 then 1 else 0)).
  Proof.
    intros Ha. unfold is_zero. eapply cpl_bind; [now apply invert_cpl|].
    intros [f i] c' _ _ _ (H1 & _ & H2 & _). apply cpl_ret. now split.
  Qed.

  Fixpoint vmsum (ls : list (aval N * aval N * aval N * N)) : N :=
    match ls with
    | [] => 0
    | (a, b, d, k) :: ls => av_val a * av_val b + av_val d * k + vmsum ls
    end.
  Definition valid4 c (x : aval N * aval N * aval N * N) : Prop :=
    valid c (fst (fst (fst x))) /\ valid c (Datatypes.snd (fst (fst x))) /\ valid c (Datatypes.snd (fst x)).
  Lemma valid4_le c c' ls : ctx_le c c' -> Forall (valid4 c) ls -> Forall (valid4 c') ls.
  Proof.
    intros L H. eapply Forall_impl; [|exact H]. intros x (H1 & H2 & H3). repeat split; eapply valid_le; eauto.
  Qed.
  Lemma mul_add_fold_cpl ls : forall acc c,
    valid c acc -> Forall (valid4 c) ls ->
    cpl c (mul_add_fold acc ls) (fun r c' => valid c' r /\ av_val r = av_val acc + vmsum ls).
  Proof.
    induction ls as [|[[[a b] d] k] ls IH]; intros acc c Ha Hl; cbn [mul_add_fold vmsum].
    - apply cpl_ret. split; [assumption|ring].
    - apply Forall_cons_iff in Hl. destruct Hl as [(H1 & H2 & H3) Hl]. cbn in H1, H2, H3.
      eapply cpl_bind; [now apply mul_add2_cpl|]. intros acc' c' _ L G [V E].
      eapply cpl_conseq; [apply IH; [assumption|eapply valid4_le; eauto]|].
      intros r c2 _ _ _ [V2 ->]. split; [assumption|]. rewrite E. ring.
  Qed.
  Lemma mul_add_with_next_line_cpl ls c : ls <> [] -> Forall (valid4 c) ls ->
    cpl c (mul_add_with_next_line ls) (fun r c' => valid c' r /\ av_val r = vmsum ls).
  Proof.
    destruct ls as [|[[[a b] d] k] ls]; intros Hn Hl; [contradiction|]. cbn [mul_add_with_next_line vmsum].
    apply Forall_cons_iff in Hl. destruct Hl as [(H1 & H2 & H3) Hl]. cbn in H1, H2, H3.
    eapply cpl_bind; [now apply mul_add_cpl|]. intros acc c' _ L G [V E].
    eapply cpl_conseq; [apply mul_add_fold_cpl; [assumption|eapply valid4_le; eauto]|].
    intros r c2 _ _ _ [V2 ->]. split; [assumption|]. rewrite E. ring.
  Qed.
End OpLemmas.
