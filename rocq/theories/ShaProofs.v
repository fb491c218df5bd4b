(** Proofs about the hash transcript. *)
From Coq Require Import ZArith Lia List Bool Arith.
From Verif Require Import Util Algebra PField Curve Bytes ShaTranscript.
Import ListNotations.
Local Open Scope Z_scope.

Section Sha.
  Variables S W : PF.
  Variable b : W.
  Variable H : list Z -> list Z.
  Variable ident_ok : bool.
  Hypothesis HS : pf_n S <= 256 ^ 32.
  Hypothesis HW : pf_n W <= 256 ^ 32.
  Hypothesis Hb : b <> f0.
  Hypothesis Hlen : forall x, length (H x) = 32%nat.
  Add Field WF : (f_th W).

  Lemma range32 {F : PF} (HF : pf_n F <= 256 ^ 32) (x : F) : 0 <= toZ x < 256 ^ Z.of_nat 32.
  Proof. pose proof (toZ_range F x). change (Z.of_nat 32) with 32. lia. Qed.
  Lemma repr_length {F : PF} (x : F) : length (to_repr x) = 32%nat. Proof. apply le_length. Qed.
  Lemma repr_inj {F : PF} (HF : pf_n F <= 256 ^ 32) (x y : F) : to_repr x = to_repr y -> x = y.
  Proof. intro E. apply toZ_inj. apply (le_inj 32); [apply range32; exact HF|apply range32; exact HF|exact E]. Qed.
  Lemma from_to {F : PF} (HF : pf_n F <= 256 ^ 32) (x : F) : from_repr (to_repr x) = Some x.
  Proof.
    unfold from_repr, to_repr. rewrite leval_le by (apply range32; exact HF).
    destruct (Z.ltb_spec (toZ x) (pf_n F)) as [_|L]; [now rewrite ofZ_toZ|pose proof (toZ_range F x); lia].
  Qed.
  Lemma to_from {F : PF} (l : list Z) (x : F) : Forall byte l -> length l = 32%nat -> from_repr l = Some x -> l = to_repr x.
  Proof.
    unfold from_repr, to_repr. intros Hl L E. destruct (Z.ltb_spec (leval l) (pf_n F)) as [B|]; [|discriminate].
    injection E as <-. rewrite toZ_ofZ. pose proof (leval_bounds l Hl). rewrite Z.mod_small by lia.
    rewrite <- L. symmetry. now apply le_leval.
  Qed.
  Lemma read_exact_app (l rest : list Z) n : length l = n -> read_exact n (l ++ rest) = Some (l, rest).
  Proof.
    intro L. unfold read_exact. rewrite app_length, L. destruct (Nat.leb_spec n (n + length rest)) as [_|C]; [|lia].
    now rewrite firstn_app_l, skipn_app_l.
  Qed.
  Lemma read_exact_inv n rest l r : read_exact n rest = Some (l, r) -> rest = l ++ r /\ length l = n.
  Proof.
    unfold read_exact. destruct (Nat.leb_spec n (length rest)) as [L|]; [|discriminate].
    intro E. injection E as <- <-. split; [symmetry; apply firstn_skipn|now apply firstn_length_le].
  Qed.
  Lemma read_base_app (x : W) rest : read_base (to_repr x ++ rest) = Some (x, rest).
  Proof. unfold read_base. rewrite read_exact_app by apply repr_length. cbn beta iota. now rewrite (from_to HW). Qed.
  Lemma read_base_inv rest (x : W) r : Forall byte rest -> read_base rest = Some (x, r) -> rest = to_repr x ++ r.
  Proof.
    unfold read_base. intros Hr E. destruct (read_exact 32 rest) as [[l r']|] eqn:R; [|discriminate]. cbn beta iota in E.
    destruct (read_exact_inv _ _ _ _ R) as [-> L]. destruct (from_repr l) as [y|] eqn:Fy; [|discriminate]. injection E as -> ->.
    apply Forall_app in Hr as [Hl _]. now rewrite (to_from l x Hl L Fy).
  Qed.

  Lemma zero_off_curve : on_curve_dec W b f0 f0 = false.
  Proof.
    unfold on_curve_dec. destruct (feq_dec _ _) as [E|]; [|reflexivity]. exfalso. apply Hb.
    transitivity (fadd (fmul (fmul f0 f0) f0) b); [ring|]. rewrite <- E. ring.
  Qed.
  Lemma coords_from_xy (P : point W) x y : on_curve b P -> coordinates ident_ok P = Some (x, y) -> from_xy b ident_ok x y = Some P.
  Proof.
    intros OP E. destruct P as [|px py]; cbn [coordinates] in E.
    - destruct ident_ok; [|discriminate]. injection E as <- <-. unfold from_xy. rewrite zero_off_curve.
      destruct (feq_dec f0 f0) as [_|C]; [reflexivity|congruence].
    - injection E as <- <-. unfold from_xy, on_curve_dec. cbn [on_curve] in OP. destruct (feq_dec _ _) as [_|C]; [reflexivity|contradiction].
  Qed.
  Lemma from_xy_coords x y (P : point W) : from_xy b ident_ok x y = Some P -> on_curve b P /\ coordinates ident_ok P = Some (x, y).
  Proof.
    unfold from_xy. destruct (on_curve_dec W b x y) eqn:OC.
    - intro E. injection E as <-. split; [|reflexivity]. unfold on_curve_dec in OC. destruct (feq_dec _ _) as [E|]; [exact E|discriminate].
    - destruct ident_ok eqn:I; [|discriminate]. destruct (feq_dec x f0) as [->|]; [|discriminate]. destruct (feq_dec y f0) as [->|]; [|discriminate].
      intro E. injection E as <-. split; [exact Logic.I|reflexivity].
  Qed.
  Lemma coords_inj P Q c : on_curve b P -> on_curve b Q -> coordinates ident_ok P = Some c -> coordinates ident_ok Q = Some c -> P = Q.
  Proof.
    destruct c as [x y]. intros HP HQ EP EQ. apply coords_from_xy in EP; [|exact HP]. apply coords_from_xy in EQ; [|exact HQ].
    rewrite EP in EQ. now injection EQ.
  Qed.

  (** ** The reader reads what the writer wrote *)
  Definition wop_ok (o : wop S W) : Prop := match o with WPoint P | WCommonPoint P => on_curve b P | _ => True end.

  Lemma write_op_read o st out v st' out' : wop_ok o -> write_op H ident_ok o st out = Some (v, st', out') ->
    exists w, out' = out ++ w /\ forall rest, read_op b H ident_ok (counterpart o) st (w ++ rest) = Some (v, st', rest).
  Proof.
    intros OK E. destruct o as [P|s|P|s|]; cbn [write_op counterpart read_op wop_ok] in *.
    - unfold write_point, common_point in E. destruct (coordinates ident_ok P) as [[x y]|] eqn:C; [|discriminate].
      cbn beta iota in E. injection E as <- <- <-. exists (to_repr x ++ to_repr y). split; [reflexivity|]. intro rest.
      unfold read_point. rewrite <- app_assoc, read_base_app. cbn beta iota. rewrite read_base_app. cbn beta iota.
      rewrite (coords_from_xy P x y OK C). cbn beta iota. unfold common_point. rewrite C. reflexivity.
    - injection E as <- <- <-. exists (to_repr s). split; [reflexivity|]. intro rest. unfold read_scalar.
      rewrite read_exact_app by apply repr_length. cbn beta iota. now rewrite (from_to HS).
    - destruct (common_point ident_ok st P) as [st1|] eqn:C; [|discriminate]. injection E as <- <- <-.
      exists []. rewrite app_nil_r. split; [reflexivity|]. intro rest. reflexivity.
    - injection E as <- <- <-. exists []. rewrite app_nil_r. split; [reflexivity|]. reflexivity.
    - unfold squeeze_challenge in *. injection E as <- <- <-. exists []. rewrite app_nil_r. split; reflexivity.
  Qed.
  Lemma write_all_read os : forall st out vs st' out', Forall wop_ok os -> write_all H ident_ok os st out = Some (vs, st', out') ->
    exists w, out' = out ++ w /\ forall rest, read_all b H ident_ok (map counterpart os) st (w ++ rest) = Some (vs, st', rest).
  Proof.
    induction os as [|o os IH]; intros st out vs st' out' OK E; cbn [write_all map read_all] in *.
    - injection E as <- <- <-. exists []. rewrite app_nil_r. split; reflexivity.
    - destruct (write_op _ _ o st out) as [[[v st1] out1]|] eqn:E1; [|discriminate]. cbn beta iota in E.
      destruct (write_all _ _ os st1 out1) as [[[vs1 st2] out2]|] eqn:E2; [|discriminate]. injection E as <- <- <-.
      inversion OK as [|? ? OKo OKs]; subst. destruct (write_op_read _ _ _ _ _ _ OKo E1) as (w1 & -> & R1).
      destruct (IH _ _ _ _ _ OKs E2) as (w2 & -> & R2). exists (w1 ++ w2). rewrite <- app_assoc. split; [reflexivity|]. intro rest.
      rewrite <- app_assoc, R1. cbn beta iota. now rewrite R2.
  Qed.

  (** ** Nothing but what the writer writes can be read *)
  Lemma read_op_write (o : rop S W) st rest v st' rest' : Forall byte rest -> read_op b H ident_ok o st rest = Some (v, st', rest') ->
    exists (wo : wop S W) w, counterpart wo = o /\ (match o with RPoint => wop_ok wo | _ => True end) /\ rest = w ++ rest' /\ forall out, write_op H ident_ok wo st out = Some (v, st', out ++ w).
  Proof.
    intros HR E. destruct o as [| |P|s|]; cbn [read_op] in E.
    - unfold read_point in E. destruct (read_base rest) as [[x r1]|] eqn:X; [|discriminate]. cbn beta iota in E.
      apply read_base_inv in X; [|exact HR]. subst rest. apply Forall_app in HR as [_ HR].
      destruct (read_base r1) as [[y r2]|] eqn:Y; [|discriminate]. cbn beta iota in E. apply read_base_inv in Y; [|exact HR]. subst r1.
      destruct (from_xy b ident_ok x y) as [P|] eqn:Q; [|discriminate]. cbn beta iota in E. apply from_xy_coords in Q as [OP C].
      unfold common_point in E. rewrite C in E. cbn beta iota in E. injection E as <- <- <-.
      exists (WPoint P), (to_repr x ++ to_repr y). split; [reflexivity|]. split; [exact OP|]. split; [now rewrite app_assoc|].
      intro out. cbn [write_op]. unfold write_point, common_point. rewrite C. reflexivity.
    - unfold read_scalar in E. destruct (read_exact 32 rest) as [[l r]|] eqn:R; [|discriminate]. cbn beta iota in E.
      destruct (read_exact_inv _ _ _ _ R) as [-> L]. destruct (from_repr l) as [s|] eqn:Fs; [|discriminate]. injection E as <- <- <-.
      apply Forall_app in HR as [Hl _]. apply (to_from l s Hl L) in Fs. subst l.
      exists (WScalar s), (to_repr s). split; [reflexivity|]. split; [exact I|]. split; [reflexivity|]. reflexivity.
    - destruct (common_point ident_ok st P) as [st1|] eqn:C; [|discriminate]. injection E as <- <- <-.
      exists (WCommonPoint P), []. split; [reflexivity|]. split; [exact I|]. split; [reflexivity|]. intro out. cbn [write_op]. rewrite C, app_nil_r. reflexivity.
    - injection E as <- <- <-. exists (WCommonScalar s), []. split; [reflexivity|]. split; [exact I|]. split; [reflexivity|].
      intro out. now rewrite app_nil_r.
    - unfold squeeze_challenge in E. injection E as <- <- <-. exists WSqueeze, []. split; [reflexivity|]. split; [exact I|]. split; [reflexivity|].
      intro out. now rewrite app_nil_r.
  Qed.
  Lemma read_all_write (os : list (rop S W)) : forall st rest vs st' rest', Forall byte rest -> read_all b H ident_ok os st rest = Some (vs, st', rest') ->
    exists (wos : list (wop S W)) w, map counterpart wos = os /\ rest = w ++ rest' /\ forall out, write_all H ident_ok wos st out = Some (vs, st', out ++ w).
  Proof.
    induction os as [|o os IH]; intros st rest vs st' rest' HR E; cbn [read_all] in E.
    - injection E as <- <- <-. exists [], []. split; [reflexivity|]. split; [reflexivity|]. intro out. cbn. now rewrite app_nil_r.
    - destruct (read_op _ _ _ o st rest) as [[[v st1] r1]|] eqn:E1; [|discriminate]. cbn beta iota in E.
      destruct (read_all _ _ _ os st1 r1) as [[[vs1 st2] r2]|] eqn:E2; [|discriminate]. injection E as <- <- <-.
      destruct (read_op_write _ _ _ _ _ _ HR E1) as (wo & w & C & _ & -> & Wo). apply Forall_app in HR as [_ HR].
      destruct (IH _ _ _ _ _ HR E2) as (wos & w' & Cs & -> & Ws).
      exists (wo :: wos), (w ++ w'). cbn [map write_all]. rewrite C, Cs. split; [reflexivity|]. split; [now rewrite app_assoc|].
      intro out. rewrite Wo. cbn beta iota. rewrite Ws. cbn beta iota. now rewrite app_assoc.
  Qed.

  (** ** The absorbed bytes determine what was absorbed *)
  Inductive ev := EPoint (P : point W) | EScalar (s : S) | ESqueeze.
  Definition ev_ok (e : ev) : Prop := match e with EPoint P => on_curve b P | _ => True end.
  Definition step (e : ev) (st : list Z) : option (list Z) :=
    match e with EPoint P => common_point ident_ok st P | EScalar s => Some (common_scalar st s) | ESqueeze => Some (snd (squeeze_challenge (S := S) H st)) end.
  Fixpoint steps (es : list ev) (st : list Z) : option (list Z) :=
    match es with [] => Some st | e :: es => do st <- step e st; steps es st end.

  Definition tag (t : Z) : list Z := repeat 0 31 ++ [t].
  Definition enc (e : ev) : option (list Z) :=
    match e with
    | EPoint P => do (x, y) <- coordinates ident_ok P; Some (tag 1 ++ rev (to_repr x) ++ rev (to_repr y))
    | EScalar s => Some (tag 2 ++ rev (to_repr s))
    | ESqueeze => None
    end.
  Fixpoint encs (es : list ev) : option (list Z) :=
    match es with [] => Some [] | e :: es => do x <- enc e; do y <- encs es; Some (x ++ y) end.
  Lemma step_enc e st : e <> ESqueeze -> step e st = do x <- enc e; Some (st ++ x).
  Proof.
    destruct e as [P|s|]; intro N; cbn [step enc]; [| |congruence].
    - unfold common_point. destruct (coordinates ident_ok P) as [[x y]|]; [|reflexivity]. cbn beta iota. unfold tag. now rewrite <- !app_assoc.
    - unfold common_scalar, tag. cbn beta iota. now rewrite <- !app_assoc.
  Qed.
  Lemma steps_encs es : forall st, Forall (fun e => e <> ESqueeze) es -> steps es st = do x <- encs es; Some (st ++ x).
  Proof.
    induction es as [|e es IH]; intros st N; cbn [steps encs]; [now rewrite app_nil_r|].
    inversion N as [|? ? Ne Ns]; subst. rewrite step_enc by exact Ne. destruct (enc e) as [x|]; [|reflexivity]. cbn beta iota.
    rewrite IH by exact Ns. destruct (encs es) as [y|]; [|reflexivity]. cbn beta iota. now rewrite app_assoc.
  Qed.
  Lemma steps_app es es' st : steps (es ++ es') st = do st' <- steps es st; steps es' st'.
  Proof.
    revert st. induction es as [|e es IH]; intro st; cbn [app steps]; [reflexivity|].
    destruct (step e st) as [st1|]; [|reflexivity]. cbn beta iota. apply IH.
  Qed.
  Lemma some_inj {A} (x y : A) : Some x = Some y -> x = y. Proof. congruence. Qed.
  Lemma tag_length t : length (tag t) = 32%nat. Proof. reflexivity. Qed.
  Lemma rev_inj {A} (l l' : list A) : rev l = rev l' -> l = l'.
  Proof. intro E. rewrite <- (rev_involutive l), <- (rev_involutive l'). now rewrite E. Qed.
  Lemma enc_inj e e' x x' r r' : ev_ok e -> ev_ok e' -> enc e = Some x -> enc e' = Some x' -> x ++ r = x' ++ r' -> e = e' /\ r = r'.
  Proof.
    intros O O' E E' A. destruct e as [P|s|], e' as [P'|s'|]; cbn [enc] in E, E'; try discriminate.
    - destruct (coordinates ident_ok P) as [[px py]|] eqn:C; [|discriminate]. destruct (coordinates ident_ok P') as [[px' py']|] eqn:C'; [|discriminate].
      apply some_inj in E; subst. apply some_inj in E'; subst. rewrite <- !app_assoc in A.
      apply app_inv_len in A as [_ A]; [|reflexivity]. apply app_inv_len in A as [Ex A]; [|now rewrite !rev_length, !repr_length].
      apply app_inv_len in A as [Ey A]; [|now rewrite !rev_length, !repr_length]. apply rev_inj, (repr_inj HW) in Ex, Ey. subst.
      split; [f_equal; apply (coords_inj P P' (px', py')); assumption|reflexivity].
    - destruct (coordinates ident_ok P) as [[px py]|] eqn:C; [|discriminate]. apply some_inj in E; subst. apply some_inj in E'; subst. rewrite <- !app_assoc in A.
      apply app_inv_len in A as [A _]; [|reflexivity]. discriminate.
    - destruct (coordinates ident_ok P') as [[px py]|] eqn:C; [|discriminate]. apply some_inj in E; subst. apply some_inj in E'; subst. rewrite <- !app_assoc in A.
      apply app_inv_len in A as [A _]; [|reflexivity]. discriminate.
    - apply some_inj in E; subst. apply some_inj in E'; subst. rewrite <- !app_assoc in A. apply app_inv_len in A as [_ A]; [|reflexivity].
      apply app_inv_len in A as [Es A]; [|now rewrite !rev_length, !repr_length]. apply rev_inj, (repr_inj HS) in Es. subst. auto.
  Qed.
  Lemma enc_shape e x : enc e = Some x -> exists t y, (t = 1 \/ t = 2) /\ x = tag t ++ y.
  Proof.
    destruct e as [P|s|]; cbn [enc]; intro E; [|apply some_inj in E; subst; exists 2; eexists; split; [auto|reflexivity]|discriminate].
    destruct (coordinates ident_ok P) as [[px py]|]; [|discriminate]. apply some_inj in E; subst. exists 1. eexists. split; [auto|reflexivity].
  Qed.
  Lemma encs_shape es x : encs es = Some x -> x = [] \/ exists t y, (t = 1 \/ t = 2) /\ x = tag t ++ y.
  Proof.
    destruct es as [|e es]; cbn [encs]; intro E; [apply some_inj in E; subst; auto|]. right.
    destruct (enc e) as [x1|] eqn:E1; [|discriminate]. cbn beta iota in E. destruct (encs es) as [y1|]; [|discriminate]. apply some_inj in E; subst.
    destruct (enc_shape _ _ E1) as (t & y & T & ->). exists t, (y ++ y1). split; [exact T|now rewrite app_assoc].
  Qed.
  Lemma encs_inj es : forall es' x x', Forall ev_ok es -> Forall ev_ok es' -> encs es = Some x -> encs es' = Some x' -> x = x' -> es = es'.
  Proof.
    induction es as [|e es IH]; intros [|e' es'] x x' O O' E E' A; cbn [encs] in E, E'.
    - reflexivity.
    - apply some_inj in E; subst. destruct (enc e') as [x1|] eqn:E1; [|discriminate]. cbn beta iota in E'. destruct (encs es'); [|discriminate]. apply some_inj in E'; subst.
      destruct (enc_shape _ _ E1) as (t & y & _ & ->). discriminate.
    - apply some_inj in E'; subst. destruct (enc e) as [x1|] eqn:E1; [|discriminate]. cbn beta iota in E. destruct (encs es); [|discriminate]. apply some_inj in E; subst.
      destruct (enc_shape _ _ E1) as (t & y & _ & ->). discriminate.
    - destruct (enc e) as [x1|] eqn:E1; [|discriminate]. cbn beta iota in E. destruct (encs es) as [y1|] eqn:E2; [|discriminate]. apply some_inj in E.
      destruct (enc e') as [x2|] eqn:E3; [|discriminate]. cbn beta iota in E'. destruct (encs es') as [y2|] eqn:E4; [|discriminate]. apply some_inj in E'; rewrite <- E, <- E' in A.
      inversion O as [|? ? Oe Os]; subst. inversion O' as [|? ? Oe' Os']; subst.
      destruct (enc_inj _ _ _ _ _ _ Oe Oe' E1 E3 A) as [-> R]. f_equal. exact (IH es' y1 y2 Os Os' eq_refl E4 R).
  Qed.

  Lemma split_last (es : list ev) : Forall (fun e => e <> ESqueeze) es \/ exists es1 es2, es = es1 ++ ESqueeze :: es2 /\ Forall (fun e => e <> ESqueeze) es2.
  Proof.
    induction es as [|e es IH]; [left; constructor|].
    destruct IH as [IH|(es1 & es2 & -> & IH)]; [|right; exists (e :: es1), es2; auto].
    destruct e; [left; constructor; [discriminate|exact IH]|left; constructor; [discriminate|exact IH]|right; exists [], es; auto].
  Qed.
  (** Two inputs with the same digest, or a digest that looks like the header of an absorbed value. *)
  Definition broken : Prop := (exists x y, x <> y /\ H x = H y) \/ exists x t, (t = 1 \/ t = 2) /\ H x = tag t.

  Lemma list_dec (x y : list Z) : x = y \/ x <> y.
  Proof. destruct (list_eq_dec Z.eq_dec x y); auto. Qed.

  Lemma steps_seg es1 es2 st : Forall (fun e => e <> ESqueeze) es2 -> steps (es1 ++ ESqueeze :: es2) [] = Some st ->
    exists st1 x, steps es1 [] = Some st1 /\ encs es2 = Some x /\ st = H (st1 ++ [0]) ++ x.
  Proof.
    intros N E. rewrite steps_app in E. destruct (steps es1 []) as [st1|]; [|discriminate]. cbn [steps step] in E.
    unfold squeeze_challenge in E. cbn [snd] in E. rewrite steps_encs in E by exact N. destruct (encs es2) as [x|]; [|discriminate].
    apply some_inj in E; subst. exists st1, x. auto.
  Qed.
  Lemma steps_inj n : forall es es' st, (length es <= n)%nat -> Forall ev_ok es -> Forall ev_ok es' ->
    steps es [] = Some st -> steps es' [] = Some st -> es = es' \/ broken.
  Proof.
    induction n as [|n IH]; intros es es' st L O O' E E'.
    - destruct es; [|cbn in L; lia]. destruct (split_last es') as [N|(es1 & es2 & -> & N)].
      + cbn in E. rewrite steps_encs in E' by exact N. apply some_inj in E; subst. destruct (encs es') as [x|] eqn:X; [|discriminate]. apply some_inj in E'.
        left. apply (encs_inj [] es' [] x); auto.
      + apply steps_seg in E'; [|exact N]. destruct E' as (st1 & x & _ & _ & ->). cbn in E. apply some_inj in E. apply (f_equal (@length Z)) in E.
        rewrite app_length, Hlen in E. cbn in E. lia.
    - destruct (split_last es) as [N|(es1 & es2 & -> & N)], (split_last es') as [N'|(es1' & es2' & -> & N')].
      + rewrite steps_encs in E by exact N. rewrite steps_encs in E' by exact N'. destruct (encs es) as [x|] eqn:X; [|discriminate].
        destruct (encs es') as [x'|] eqn:X'; [|discriminate]. apply some_inj in E; subst. apply some_inj in E'. left. apply (encs_inj es es' x x'); auto.
      + rewrite steps_encs in E by exact N. destruct (encs es) as [x|] eqn:X; [|discriminate]. apply some_inj in E; subst. cbn [app] in *.
        apply steps_seg in E'; [|exact N']. destruct E' as (st1 & x' & _ & _ & E'). destruct (encs_shape _ _ X) as [->|(t & y & T & ->)].
        * apply (f_equal (@length Z)) in E'. rewrite app_length, Hlen in E'. cbn in E'. lia.
        * apply app_inv_len in E' as [E' _]; [|now rewrite Hlen]. right. right. exists (st1 ++ [0]), t. auto.
      + rewrite steps_encs in E' by exact N'. destruct (encs es') as [x|] eqn:X; [|discriminate]. apply some_inj in E'; subst. cbn [app] in *.
        apply steps_seg in E; [|exact N]. destruct E as (st1 & x' & _ & _ & E). destruct (encs_shape _ _ X) as [->|(t & y & T & ->)].
        * apply (f_equal (@length Z)) in E. rewrite app_length, Hlen in E. cbn in E. lia.
        * apply app_inv_len in E as [E _]; [|now rewrite Hlen]. right. right. exists (st1 ++ [0]), t. auto.
      + apply steps_seg in E; [|exact N]. apply steps_seg in E'; [|exact N'].
        destruct E as (st1 & x & S1 & X & ->), E' as (st1' & x' & S1' & X' & E').
        apply app_inv_len in E' as [D R]; [|now rewrite !Hlen].
        apply Forall_app in O as [O1 O2]. apply Forall_app in O' as [O1' O2']. inversion O2; subst. inversion O2'; subst.
        assert (Q : es2 = es2') by (apply (encs_inj es2 es2' x' x'); auto). subst es2'.
        destruct (list_dec (st1 ++ [0]) (st1' ++ [0])) as [A|A].
        * apply app_inj_tail in A as [-> _]. destruct (IH es1 es1' st1') as [-> |B]; auto. rewrite app_length in L. cbn in L. lia.
        * right. left. eauto.
  Qed.
End Sha.
