(** Scalar decomposition (native_ecc_chip.rs:42-132): the bits are bits and their
    weighted sum is the scalar, in every satisfying assignment; and the honest
    prover always succeeds. *)
From Coq Require Import ZArith Arith NArith Lia List Bool Ring Field.
From Verif Require Import Util Algebra PField Gate GateProofs GateOps Integer Bn254 IntegerFacts IntegerHistorySound Curve Ecc.
Import ListNotations.
Local Open Scope fld_scope.

(** a window, least significant bit first *)
Fixpoint bitsN (l : list bool) : N := match l with [] => 0 | b :: l => N.b2n b + 2 * bitsN l end%N.
(** windows of [ws] bits, most significant window first *)
Definition winsN (ws : nat) (l : list (list bool)) : N := fold_left (fun k bs => 2 ^ N.of_nat ws * k + bitsN bs)%N l 0%N.
(** the same, least significant window first *)
Fixpoint winsN_le (ws : nat) (l : list (list bool)) : N :=
  match l with [] => 0 | bs :: l => bitsN bs + 2 ^ N.of_nat ws * winsN_le ws l end%N.
Lemma winsN_rev ws l : winsN ws (rev l) = winsN_le ws l.
Proof.
  unfold winsN. rewrite <- fold_left_rev_right, rev_involutive. induction l as [|bs l IH]; cbn [fold_right winsN_le]; [reflexivity|].
  rewrite IH. apply N.add_comm.
Qed.
Lemma bitsN_lt l : (bitsN l < 2 ^ N.of_nat (length l))%N.
Proof.
  induction l as [|b l IH]; cbn [bitsN length]; [reflexivity|]. rewrite Nat2N.inj_succ, N.pow_succ_r'. destruct b; cbn [N.b2n]; lia.
Qed.

Lemma winsN_le_lt ws l : Forall (fun bs => length bs = ws) l -> (winsN_le ws l < 2 ^ N.of_nat (ws * length l))%N.
Proof.
  induction 1 as [|bs l Hb _ IH]; cbn [winsN_le length]; [now rewrite Nat.mul_0_r|]. pose proof (bitsN_lt bs) as Hlt. rewrite Hb in Hlt.
  replace (N.of_nat (ws * S (length l))) with (N.of_nat ws + N.of_nat (ws * length l))%N by lia. rewrite N.pow_add_r. nia.
Qed.
Lemma winsN_lt ws l : Forall (fun bs => length bs = ws) l -> (winsN ws l < 2 ^ N.of_nat (ws * length l))%N.
Proof.
  intro H. rewrite <- (rev_involutive l), winsN_rev, rev_length. apply winsN_le_lt. now apply Forall_rev.
Qed.
Lemma Forall2_len {A B} (R : A -> B -> Prop) l l' : Forall2 R l l' -> length l = length l'.
Proof. induction 1; cbn; auto. Qed.

(** the lowest [ws] bits of [s], and its [n] lowest windows *)
Definition zbits (ws : nat) (s : Z) : list bool := map (fun j => Z.testbit s (Z.of_nat j)) (seq 0 ws).
Fixpoint zwins (ws n : nat) (s : Z) : list (list bool) :=
  match n with O => [] | S n => zbits ws s :: zwins ws n (s / 2 ^ Z.of_nat ws)%Z end.
Lemma bitsN_seq s ws : (0 <= s)%Z -> forall i,
  Z.of_N (bitsN (map (fun j => Z.testbit s (Z.of_nat j)) (seq i ws))) = ((s / 2 ^ Z.of_nat i) mod 2 ^ Z.of_nat ws)%Z.
Proof.
  intros Hs. induction ws as [|ws IH]; intro i; cbn [seq map bitsN].
  - change (2 ^ Z.of_nat 0)%Z with 1%Z. now rewrite Z.mod_1_r.
  - rewrite N2Z.inj_add, N2Z.inj_mul, IH. change (Z.of_N 2) with 2%Z. rewrite !Nat2Z.inj_succ, !Z.pow_succ_r by lia.
    rewrite (Z.mul_comm 2 (2 ^ Z.of_nat i)), <- Z.div_div by lia. rewrite Z.rem_mul_r by lia.
    rewrite <- Z.bit0_mod, Z.div_pow2_bits, Z.add_0_l by lia. destruct (Z.testbit s (Z.of_nat i)); reflexivity.
Qed.
Lemma zbits_length ws s : length (zbits ws s) = ws.
Proof. unfold zbits. now rewrite map_length, seq_length. Qed.
Lemma zwins_length ws n : forall s, length (zwins ws n s) = n /\ Forall (fun l => length l = ws) (zwins ws n s).
Proof.
  induction n as [|n IH]; intro s; cbn [zwins length]; [split; [reflexivity|constructor]|]. destruct (IH (s / 2 ^ Z.of_nat ws)%Z) as [H1 H2].
  split; [now rewrite H1|]. constructor; [apply zbits_length|assumption].
Qed.
Lemma zwins_app ws n m : forall s, zwins ws (n + m) s = zwins ws n s ++ zwins ws m (s / 2 ^ Z.of_nat (ws * n))%Z.
Proof.
  induction n as [|n IH]; intro s; cbn [Nat.add zwins app].
  - rewrite Nat.mul_0_r. change (2 ^ Z.of_nat 0)%Z with 1%Z. now rewrite Z.div_1_r.
  - rewrite IH. do 3 f_equal. rewrite Z.div_div, <- Z.pow_add_r by lia. f_equal. f_equal. lia.
Qed.
Lemma Forall2_rev_ {A B} (R : A -> B -> Prop) l l' : Forall2 R l l' -> Forall2 R (rev l) (rev l').
Proof. induction 1 as [|a b l l' H _ IH]; cbn [rev]; [constructor|]. apply Forall2_app; [assumption|now repeat constructor]. Qed.
Lemma zwins_value ws n : forall s, (0 <= s)%Z -> Z.of_N (winsN_le ws (zwins ws n s)) = (s mod 2 ^ Z.of_nat (ws * n))%Z.
Proof.
  induction n as [|n IH]; intros s Hs; cbn [zwins winsN_le].
  - rewrite Nat.mul_0_r. change (2 ^ Z.of_nat 0)%Z with 1%Z. now rewrite Z.mod_1_r.
  - rewrite N2Z.inj_add, N2Z.inj_mul, IH by (apply Z.div_pos; lia). rewrite N2Z.inj_pow, nat_N_Z. change (Z.of_N 2) with 2%Z.
    unfold zbits. rewrite (bitsN_seq s ws Hs 0). change (2 ^ Z.of_nat 0)%Z with 1%Z. rewrite Z.div_1_r.
    replace (Z.of_nat (ws * S n)) with (Z.of_nat ws + Z.of_nat (ws * n))%Z by lia. rewrite Z.pow_add_r, Z.rem_mul_r by lia. reflexivity.
Qed.

Section Scalar.
  Variable N : PF.
  Add Field NF : (f_th N).
  Implicit Types (w : asg N) (c : ctx N).
  Local Notation holds_bit := (holds_bit N).
  Definition ofN (k : BinNums.N) : N := ofZ (Z.of_N k).

  (** ** Soundness *)
  Fixpoint fbits w (l : list (aval N)) : N := match l with [] => 0 | a :: l => w (av_cell a) + (1 + 1) * fbits w l end.
  Fixpoint fwins w (ws : nat) (l : list (list (aval N))) : N :=
    match l with [] => 0 | bs :: l => fbits w bs + ofZ (2 ^ Z.of_nat ws) * fwins w ws l end.

  Local Notation ps_of i bits := (map (fun iv => (VU (snd iv) : vschema N, @ofZ N (2 ^ Z.of_nat (fst iv)))) (combine (seq i (length bits)) bits)).

  Lemma dot_bits w r (bits : list N) : forall i,
    dot w r i (map snd (ps_of i bits)) = ofZ (2 ^ Z.of_nat i) * fbits w (cells_of r i (ps_of i bits)).
  Proof.
    induction bits as [|b bits IH]; intro i; cbn [length seq combine map dot cells_of fbits snd fst av_cell]; [ring|].
    rewrite (IH (S i)). replace (2 ^ Z.of_nat (S i))%Z with (2 ^ Z.of_nat i * (1 + 1))%Z
      by (rewrite Nat2Z.inj_succ, Z.pow_succ_r by lia; lia).
    rewrite ofZ_mul, ofZ_add, ofZ_1. ring.
  Qed.
  Lemma cells_of_app r (l1 l2 : list (vschema N * N)) : forall i, cells_of r i (l1 ++ l2) = cells_of r i l1 ++ cells_of r (i + length l1) l2.
  Proof.
    induction l1 as [|[s k] l1 IH]; intro i; cbn [app cells_of length]; [now rewrite Nat.add_0_r|].
    rewrite IH. do 3 f_equal. lia.
  Qed.
  Lemma cells_of_length r (l : list (vschema N * N)) : forall i, length (cells_of r i l) = length l.
  Proof. induction l as [|[s k] l IH]; intro i; cbn; auto. Qed.

  Lemma line_row w ws bits last next c cells c' : length bits = ws ->
    decompose_line ws bits last next c = Some (cells, c') -> sat w c' ->
    sat w c /\ offset c' = S (offset c) /\ length cells = ws /\
    match last with VA s => w (av_cell s) = w (offset c, 4%nat) | VU _ => True end /\
    w (offset c, 4%nat) = fbits w cells + next * w (offset c', 4%nat).
  Proof.
    intros Hl H Hs. unfold decompose_line, bind in H. subst ws.
    destruct (one_line_with_last_base _ _ _ _ _ _) as [[cs c1]|] eqn:E; [|discriminate]. unfold ret in H. injection H as <- <-.
    destruct (last_row _ _ _ _ _ _ _ _ _ _ E Hs) as (Hle & Hs0 & Ho & -> & _ & Hc & He).
    assert (Hlen : length (ps_of 0%nat bits) = length bits) by (rewrite map_length, combine_length, seq_length; lia).
    rewrite cells_of_app, firstn_app, cells_of_length, Hlen, Nat.sub_diag, firstn_O, app_nil_r.
    rewrite firstn_all2 by (rewrite cells_of_length; lia).
    split; [assumption|]. split; [assumption|]. split; [now rewrite cells_of_length|]. split.
    - destruct last as [a|v]; [|exact I]. cbn in Hc. symmetry. tauto.
    - rewrite dot_bits in He. change (2 ^ Z.of_nat 0)%Z with 1%Z in He. rewrite ofZ_1 in He. cbn [snd] in He.
      rewrite muls_zeros in He. apply (eq_by N (- (1)) _ _ _ He). ring.
  Qed.

  Lemma decompose_bits_length ws s : length (fst (@decompose_bits N ws s)) = ws.
  Proof. cbn. now rewrite map_length, seq_length. Qed.

  Lemma mid_rows w ws : forall n s c lines s' c', decompose_mid ws n s c = Some ((lines, s'), c') -> sat w c' ->
    sat w c /\ length lines = n /\ Forall (fun l => length l = ws) lines /\
    w (offset c, 4%nat) = fwins w ws lines + ofZ (2 ^ Z.of_nat (ws * n)) * w (offset c', 4%nat).
  Proof.
    induction n as [|n IH]; intros s c lines s' c' H Hs; cbn [decompose_mid] in H.
    - unfold ret in H. injection H as <- <- <-. split; [assumption|]. split; [reflexivity|]. split; [constructor|].
      cbn [fwins]. rewrite Nat.mul_0_r. change (2 ^ Z.of_nat 0)%Z with 1%Z. rewrite ofZ_1. ring.
    - destruct (decompose_bits ws s) as [bits s1] eqn:Eb. unfold bind at 1 in H.
      destruct (decompose_line _ _ _ _ _) as [[l c1]|] eqn:E1; [|discriminate]. unfold bind in H.
      destruct (decompose_mid _ _ _ _) as [[[ls s2] c2]|] eqn:E2; [|discriminate]. unfold ret in H. cbn [fst snd] in H. injection H as <- <- <-.
      destruct (IH _ _ _ _ _ E2 Hs) as (Hs1 & Hlen & Hf & Hr).
      assert (Hb : length bits = ws) by (rewrite <- (decompose_bits_length ws s), Eb; reflexivity).
      destruct (line_row w _ _ _ _ _ _ _ Hb E1 Hs1) as (Hs0 & Ho & Hl & _ & He).
      split; [assumption|]. split; [cbn; lia|]. split; [now constructor|]. cbn [fwins]. rewrite He, Hr.
      replace (Z.of_nat (ws * S n)) with (Z.of_nat ws + Z.of_nat (ws * n))%Z by lia. rewrite Z.pow_add_r, ofZ_mul by lia. ring.
  Qed.

  Lemma fwins_snoc w ws ls l : fwins w ws (ls ++ [l]) = fwins w ws ls + ofZ (2 ^ Z.of_nat (ws * length ls)) * fbits w l.
  Proof.
    induction ls as [|l0 ls IH]; cbn [app fwins length].
    - rewrite Nat.mul_0_r. change (2 ^ Z.of_nat 0)%Z with 1%Z. rewrite ofZ_1. ring.
    - rewrite IH. replace (Z.of_nat (ws * S (length ls))) with (Z.of_nat ws + Z.of_nat (ws * length ls))%Z by lia.
      rewrite Z.pow_add_r, ofZ_mul by lia. ring.
  Qed.

  Lemma bits_bool w l : Forall (fun a => w (av_cell a) = 0 \/ w (av_cell a) = 1) l -> exists bs, Forall2 (holds_bit w) l bs.
  Proof.
    induction 1 as [|a l [H|H] _ (bs & IH)]; [exists []; constructor|exists (false :: bs)|exists (true :: bs)]; constructor; auto.
  Qed.
  Lemma fbits_bitsN w l bs : Forall2 (holds_bit w) l bs -> fbits w l = ofN (bitsN bs).
  Proof.
    induction 1 as [|a b l bs H _ IH]; cbn [fbits bitsN]; [symmetry; apply ofZ_0|]. unfold ofN in *. rewrite IH.
    unfold IntegerHistorySound.holds_bit in H. rewrite H.
    rewrite N2Z.inj_add, N2Z.inj_mul, ofZ_add, ofZ_mul. change (Z.of_N 2) with (1 + 1)%Z. rewrite ofZ_add, ofZ_1.
    destruct b; cbn [N.b2n]; [change (Z.of_N 1) with 1%Z; rewrite ofZ_1|change (Z.of_N 0) with 0%Z; rewrite ofZ_0]; ring.
  Qed.
  Lemma fwins_winsN w ws ls bss : Forall2 (Forall2 (holds_bit w)) ls bss -> fwins w ws ls = ofN (winsN_le ws bss).
  Proof.
    induction 1 as [|l bs ls bss H _ IH]; cbn [fwins winsN_le]; [symmetry; apply ofZ_0|].
    rewrite IH, (fbits_bitsN _ _ _ H). unfold ofN. rewrite N2Z.inj_add, N2Z.inj_mul, N2Z.inj_pow, nat_N_Z, ofZ_add, ofZ_mul. reflexivity.
  Qed.

  Lemma bmap_snd w {A A'} (f : A -> B N A') (P : A -> A' -> Prop) l : (forall a, snd_ w (f a) (P a)) -> snd_ w (bmap f l) (Forall2 P l).
  Proof.
    intro H. induction l as [|a l IH]; cbn [bmap].
    - apply snd_ret. constructor.
    - eapply snd_bind; [apply H|]. intro x. eapply snd_bind; [exact IH|]. intro xs. apply snd_ret. intros. now constructor.
  Qed.
  Lemma Forall2_l {A A'} (P : A -> Prop) (l : list A) (l' : list A') : Forall2 (fun a _ => P a) l l' -> Forall P l.
  Proof. induction 1; constructor; auto. Qed.

  (** The bits are bits, there are [num_windows] windows of [ws] bits, and they spell
      a number congruent to the scalar modulo the native order. *)
  Lemma decompose_scalar_snd w ws s : (2 <= num_windows N ws)%nat ->
    snd_ w (decompose_scalar ws s) (fun windows => exists bss, Forall2 (Forall2 (holds_bit w)) windows bss /\
      length bss = num_windows N ws /\ Forall (fun l => length l = ws) bss /\ w (av_cell s) = ofN (winsN ws bss)).
  Proof.
    intros Hn c r c' H Hs. unfold decompose_scalar in H.
    destruct (decompose_bits ws (toZ (av_val s))) as [bits s1] eqn:Eb1. unfold bind at 1 in H.
    destruct (decompose_line _ _ _ _ _) as [[first c1]|] eqn:E1; [|discriminate]. unfold bind at 1 in H.
    destruct (decompose_mid _ _ _ _) as [[[lines s2] c2]|] eqn:E2; [|discriminate].
    destruct (decompose_bits ws s2) as [bits' s3] eqn:Eb2. unfold bind at 1 in H.
    destruct (decompose_line ws bits' _ _ c2) as [[last c3]|] eqn:E3; [|discriminate].
    unfold bind in H. destruct (bmap _ _ c3) as [[us c4]|] eqn:E4; [|discriminate]. unfold ret in H. injection H as <- <-.
    assert (Hbits : snd_ w (bmap (bmap assert_bit) (rev (first :: lines ++ [last])))
        (Forall2 (fun l _ => Forall (fun a => w (av_cell a) = 0 \/ w (av_cell a) = 1) l) (rev (first :: lines ++ [last])))).
    { apply bmap_snd. intro l. eapply snd_conseq; [apply bmap_snd; intro a; apply assert_bit_snd|]. intros us' Hus. now apply Forall2_l in Hus. }
    destruct (Hbits _ _ _ E4 Hs) as (Hs3 & Hb). apply Forall2_l in Hb. clear Hbits E4 Hs.
    assert (Hl2 : length bits' = ws) by (rewrite <- (decompose_bits_length ws s2), Eb2; reflexivity).
    assert (Hl1 : length bits = ws) by (rewrite <- (decompose_bits_length ws (toZ (av_val s))), Eb1; reflexivity).
    destruct (line_row w _ _ _ _ _ _ _ Hl2 E3 Hs3) as (Hs2 & _ & Hl & _ & He3).
    destruct (mid_rows w _ _ _ _ _ _ _ E2 Hs2) as (Hs1 & Hlen & Hf & He2).
    destruct (line_row w _ _ _ _ _ _ _ Hl1 E1 Hs1) as (Hs0 & _ & Hlf & Hsc & He1).
    split; [assumption|].
    assert (Hall : Forall (fun l => length l = ws) (rev (first :: lines ++ [last]))).
    { apply Forall_rev. constructor; [assumption|]. apply Forall_app. split; [assumption|now repeat constructor]. }
    assert (Hex : exists bss, Forall2 (Forall2 (holds_bit w)) (rev (first :: lines ++ [last])) bss).
    { clear -Hb. induction Hb as [|l ls H _ (bss & IH)]; [exists []; constructor|]. destruct (bits_bool w l H) as (bs & Hbs).
      exists (bs :: bss). now constructor. }
    destruct Hex as (bss & Hbss). exists bss. split; [assumption|].
    split. { rewrite <- (Forall2_len _ _ _ Hbss), rev_length. cbn [length]. rewrite app_length. cbn [length]. lia. }
    split. { clear -Hall Hbss. induction Hbss as [|l bs ls bss H _ IH]; [constructor|]. apply Forall_cons_iff in Hall. destruct Hall as [H1 H2].
      constructor; [|auto]. now rewrite <- (Forall2_len _ _ _ H). }
    rewrite Hsc, He1, He2, He3.
    assert (Hrev : Forall2 (Forall2 (holds_bit w)) (first :: lines ++ [last]) (rev bss)).
    { rewrite <- (rev_involutive (first :: lines ++ [last])). clear -Hbss.
      induction Hbss as [|l bs ls bss H _ IH]; [constructor|]. cbn [rev]. apply Forall2_app; [assumption|]. now repeat constructor. }
    rewrite <- (rev_involutive bss), winsN_rev, <- (fwins_winsN w ws _ _ Hrev). cbn [fwins]. rewrite fwins_snoc, Hlen. ring.
  Qed.

  (** ** Completeness *)
  Lemma bits_list_sum s ws i : (0 <= s)%Z ->
    vdot N (map (fun j => if Z.testbit s (Z.of_nat j) then 1 else 0) (seq i ws)) (map (fun j => ofZ (2 ^ Z.of_nat j)) (seq i ws)) =
    ofZ (2 ^ Z.of_nat i * ((s / 2 ^ Z.of_nat i) mod 2 ^ Z.of_nat ws)).
  Proof.
    intro Hs. revert i. induction ws as [|ws IH]; intro i; cbn [seq map vdot].
    - change (2 ^ Z.of_nat 0)%Z with 1%Z. rewrite Z.mod_1_r, Z.mul_0_r. symmetry. apply ofZ_0.
    - rewrite IH.
      assert (E : (2 ^ Z.of_nat i * ((s / 2 ^ Z.of_nat i) mod 2 ^ Z.of_nat (S ws)) =
                   Z.b2z (Z.testbit s (Z.of_nat i)) * 2 ^ Z.of_nat i +
                   2 ^ Z.of_nat (S i) * ((s / 2 ^ Z.of_nat (S i)) mod 2 ^ Z.of_nat ws))%Z).
      { rewrite !Nat2Z.inj_succ, !Z.pow_succ_r by lia. rewrite (Z.mul_comm 2 (2 ^ Z.of_nat i)), <- Z.div_div by lia.
        rewrite Z.rem_mul_r by lia. rewrite <- Z.bit0_mod, Z.div_pow2_bits, Z.add_0_l by lia. lia. }
      rewrite E, ofZ_add, !ofZ_mul. destruct (Z.testbit s (Z.of_nat i)); cbn [Z.b2z]; rewrite ?ofZ_1, ?ofZ_0; ring.
  Qed.
  Lemma ps_of_map s ws i : ps_of i (map (fun j => if Z.testbit s (Z.of_nat j) then (1 : N) else 0) (seq i ws)) =
    map (fun j => (VU (if Z.testbit s (Z.of_nat j) then (1 : N) else 0), @ofZ N (2 ^ Z.of_nat j))) (seq i ws).
  Proof.
    revert i. induction ws as [|ws IH]; intro i; [reflexivity|]. cbn [seq map length combine fst snd]. f_equal. apply IH.
  Qed.

  Definition isbit c (a : aval N) : Prop := valid c a /\ (av_val a = 0 \/ av_val a = 1).
  Lemma isbit_le c c' a : ctx_le c c' -> isbit c a -> isbit c' a.
  Proof. intros H [H1 H2]. split; [now apply (valid_le N c)|assumption]. Qed.

  (** [a] holds the bit [z] *)
  Definition isb c (a : aval N) (z : bool) : Prop := valid c a /\ av_val a = if z then 1 else 0.
  Lemma isb_isbit c a z : isb c a z -> isbit c a.
  Proof. intros [H1 H2]. split; [assumption|]. destruct z; auto. Qed.
  Lemma isb_le c c' a z : ctx_le c c' -> isb c a z -> isb c' a z.
  Proof. intros H [H1 H2]. split; [now apply (valid_le N c)|assumption]. Qed.
  Lemma isbs_le c c' l bs : ctx_le c c' -> Forall2 (isb c) l bs -> Forall2 (isb c') l bs.
  Proof. intros L. induction 1; constructor; eauto using isb_le. Qed.
  Lemma isbss_le c c' l bs : ctx_le c c' -> Forall2 (Forall2 (isb c)) l bs -> Forall2 (Forall2 (isb c')) l bs.
  Proof. intros L. induction 1; constructor; eauto using isbs_le. Qed.
  Lemma isbs_isbit c l bs : Forall2 (isb c) l bs -> Forall (isbit c) l.
  Proof. induction 1; constructor; eauto using isb_isbit. Qed.
  Lemma isbss_isbit c l bs : Forall2 (Forall2 (isb c)) l bs -> Forall (Forall (isbit c)) l.
  Proof. induction 1; constructor; eauto using isbs_isbit. Qed.

  Lemma cells_isb c r (f : nat -> bool) (k : nat -> N) l : forall i,
    Forall (valid c) (cells_of r i (map (fun j => (VU (if f j then (1 : N) else 0), k j)) l)) ->
    Forall2 (isb c) (cells_of r i (map (fun j => (VU (if f j then (1 : N) else 0), k j)) l)) (map f l).
  Proof.
    induction l as [|j l IH]; intros i H; cbn [map cells_of] in *; [constructor|]. apply Forall_cons_iff in H. destruct H as [H1 H2].
    constructor; [|auto]. split; [assumption|]. reflexivity.
  Qed.

  Lemma line_cpl c ws s last next t : (ws <= 4)%nat -> (0 <= s)%Z -> vs_val last = ofZ s ->
    match last with VA a => valid c a | VU _ => True end -> goodp (ofZ s) c ->
    t * next = ofZ (2 ^ Z.of_nat ws * (s / 2 ^ Z.of_nat ws)) ->
    exists cells c', decompose_line ws (fst (@decompose_bits N ws s)) last next c = Some (cells, c') /\
      ctx_le c c' /\ goodp t c' /\ offset c' = S (offset c) /\ Forall2 (isb c') cells (zbits ws s).
  Proof.
    intros Hws Hs Hv Hl Hg Ht. cbn [decompose_bits fst]. unfold decompose_line, bind.
    pose proof (ps_of_map s ws 0) as Eps. rewrite map_length, seq_length in Eps. rewrite Eps. clear Eps.
    set (ps := map (fun j => (VU (if Z.testbit s (Z.of_nat j) then (1 : N) else 0), @ofZ N (2 ^ Z.of_nat j))) (seq 0 ws)).
    assert (Hlp : length ps = ws) by (unfold ps; now rewrite map_length, seq_length).
    destruct (last_line_cpl N c ps (last, - (1)) 0 [] next t) as (c' & H1 & H2 & H3 & H4 & H5); auto.
    - lia.
    - cbn; lia.
    - unfold ps. apply Forall_forall. intros p Hp. apply in_map_iff in Hp. destruct Hp as (j & <- & _). exact I.
    - constructor; [exact Hl|constructor].
    - cbn [fst]. now rewrite Hv.
    - cbv zeta. rewrite vmuls_zeros. unfold ps. rewrite !map_map. cbn [fst snd vs_val]. rewrite bits_list_sum by assumption.
      change (2 ^ Z.of_nat 0)%Z with 1%Z. rewrite Z.div_1_r, Z.mul_1_l, Ht, Hv.
      assert (E : ofZ s = (ofZ (2 ^ Z.of_nat ws * (s / 2 ^ Z.of_nat ws)) + ofZ (s mod 2 ^ Z.of_nat ws) : N)).
      { rewrite <- ofZ_add. f_equal. apply Z.div_mod. lia. }
      rewrite E. ring.
    - rewrite H1. unfold ret. eexists _, c'. split; [reflexivity|]. split; [assumption|]. split; [assumption|]. split; [assumption|].
      rewrite cells_of_app, firstn_app, cells_of_length, Hlp, Nat.sub_diag, firstn_O, app_nil_r.
      rewrite firstn_all2 by (rewrite cells_of_length; lia).
      rewrite cells_of_app in H5. apply Forall_app in H5. destruct H5 as [H5 _].
      exact (cells_isb c' (offset c) (fun j => Z.testbit s (Z.of_nat j)) (fun j => ofZ (2 ^ Z.of_nat j)) (seq 0 ws) 0 H5).
  Qed.

  Lemma mid_cpl ws n : forall s c, (ws <= 4)%nat -> (0 <= s)%Z -> goodp (ofZ s) c ->
    exists lines c', decompose_mid ws n s c = Some ((lines, s / 2 ^ Z.of_nat (ws * n))%Z, c') /\
      ctx_le c c' /\ goodp (ofZ (s / 2 ^ Z.of_nat (ws * n))) c' /\ Forall2 (Forall2 (isb c')) lines (zwins ws n s).
  Proof.
    induction n as [|n IH]; intros s c Hws Hs Hg; cbn [decompose_mid].
    - rewrite Nat.mul_0_r. change (2 ^ Z.of_nat 0)%Z with 1%Z. rewrite Z.div_1_r. unfold ret. exists [], c.
      split; [reflexivity|]. split; [apply ctx_le_refl|]. split; [assumption|constructor].
    - destruct (line_cpl c ws s (VU (ofZ s)) (ofZ (2 ^ Z.of_nat ws)) (ofZ (s / 2 ^ Z.of_nat ws))) as (l & c1 & H1 & Hle1 & Hg1 & _ & Hb1); auto.
      { rewrite ofZ_mul. ring. }
      cbn [decompose_bits fst] in H1 |- *. unfold bind at 1. rewrite H1.
      destruct (IH (s / 2 ^ Z.of_nat ws)%Z c1) as (ls & c2 & H2 & Hle2 & Hg2 & Hb2); auto.
      { apply Z.div_pos; lia. }
      rewrite Z.shiftr_div_pow2 by lia. unfold bind. rewrite H2. unfold ret. cbn [fst snd].
      assert (E : (s / 2 ^ Z.of_nat (ws * S n) = s / 2 ^ Z.of_nat ws / 2 ^ Z.of_nat (ws * n))%Z).
      { rewrite Z.div_div by lia. f_equal. rewrite <- Z.pow_add_r by lia. f_equal. lia. }
      rewrite E. exists (l :: ls), c2. split; [reflexivity|]. split; [now apply (ctx_le_trans N c c1)|]. split; [assumption|].
      cbn [zwins]. constructor; [now apply (isbs_le c1)|assumption].
  Qed.

  Lemma bmap_cpl {A A'} (f : A -> B N A') (Q : ctx N -> A -> Prop) :
    (forall c c' a, ctx_le c c' -> Q c a -> Q c' a) ->
    (forall c a, good c -> Q c a -> cpl c (f a) (fun _ _ => True)) ->
    forall l c, Forall (Q c) l -> cpl c (bmap f l) (fun _ _ => True).
  Proof.
    intros Hm Hf l. induction l as [|a l IH]; intros c Hl; cbn [bmap].
    - now apply cpl_ret.
    - apply Forall_cons_iff in Hl. destruct Hl as [Ha Hl]. intro Hg.
      revert Hg. eapply cpl_bind; [intro Hg; exact (Hf c a Hg Ha Hg)|]. intros x c1 _ Hle _ _.
      eapply cpl_bind; [apply IH; eapply Forall_impl; [|exact Hl]; intros; now apply (Hm c)|]. intros. now apply cpl_ret.
  Qed.

  Hypothesis HN : pf_n N = fr_mod.
  (** The honest prover's run succeeds from every good state, for windows of at most
      four bits (the row has four free columns). *)
  Lemma decompose_scalar_digits c ws s : (1 <= ws <= 4)%nat -> valid c s ->
    cpl c (decompose_scalar ws s) (fun r c' => exists bss, Forall2 (Forall2 (isb c')) r bss /\ length bss = num_windows N ws /\
      Forall (fun l => length l = ws) bss /\ Z.of_N (winsN ws bss) = toZ (av_val s)).
  Proof.
    intros Hws Hv Hg. unfold decompose_scalar.
    set (v := toZ (av_val s)). assert (Hv0 : (0 <= v < fr_mod)%Z) by (unfold v; rewrite <- HN; apply toZ_range).
    assert (Hnw : (2 <= num_windows N ws)%nat /\ (254 <= ws * num_windows N ws)%nat).
    { unfold num_windows. rewrite HN. change (Z.to_nat (nbits fr_mod)) with 254%nat.
      destruct ws as [|[|[|[|[|]]]]]; try lia; vm_compute; split; lia. }
    destruct (line_cpl c ws v (VA s) (ofZ (2 ^ Z.of_nat ws)) (ofZ (v / 2 ^ Z.of_nat ws))) as (l & c1 & H1 & Hle1 & Hg1 & _ & Hb1).
    { lia. } { lia. } { cbn [vs_val]. unfold v. now rewrite ofZ_toZ. } { exact Hv. } { now apply good_goodp. } { rewrite ofZ_mul. ring. }
    cbn [decompose_bits fst] in H1 |- *. unfold bind at 1. rewrite H1. rewrite Z.shiftr_div_pow2 by lia.
    destruct (mid_cpl ws (num_windows N ws - 2) (v / 2 ^ Z.of_nat ws) c1) as (ls & c2 & H2 & Hle2 & Hg2 & Hb2); [lia|apply Z.div_pos; lia|assumption|].
    unfold bind at 1. rewrite H2.
    assert (E : (v / 2 ^ Z.of_nat ws / 2 ^ Z.of_nat (ws * (num_windows N ws - 2)) = v / 2 ^ Z.of_nat (ws * (num_windows N ws - 1)))%Z).
    { rewrite Z.div_div by lia. f_equal. rewrite <- Z.pow_add_r by lia. f_equal. nia. }
    rewrite E in *. set (s2 := (v / 2 ^ Z.of_nat (ws * (num_windows N ws - 1)))%Z) in *.
    assert (Hs2 : (0 <= s2 < 2 ^ Z.of_nat ws)%Z).
    { unfold s2. split; [apply Z.div_pos; lia|]. apply Z.div_lt_upper_bound; [lia|]. rewrite <- Z.pow_add_r by lia.
      replace (Z.of_nat (ws * (num_windows N ws - 1)) + Z.of_nat ws)%Z with (Z.of_nat (ws * num_windows N ws)) by nia.
      apply Z.lt_le_trans with (2 ^ 254)%Z; [|apply Z.pow_le_mono_r; lia]. unfold fr_mod in Hv0. lia. }
    assert (Hx : forall t, exists cells c', decompose_line ws (fst (@decompose_bits N ws s2)) (VU (ofZ s2)) 0 c2 = Some (cells, c') /\
      ctx_le c2 c' /\ goodp t c' /\ offset c' = S (offset c2) /\ Forall2 (isb c') cells (zbits ws s2)).
    { intro t. apply line_cpl; [lia|lia|reflexivity|exact I|assumption|]. rewrite Z.div_small, Z.mul_0_r, ofZ_0 by lia. ring. }
    destruct (Hx 0) as (la & c3 & H3 & Hle3 & _ & _ & Hb3).
    assert (Hg3 : good c3).
    { apply goodp_all. intro t. destruct (Hx t) as (la' & c3' & H3' & _ & Hg' & _). rewrite H3 in H3'. now injection H3' as _ <-. }
    cbn [decompose_bits fst] in H3. unfold bind at 1. rewrite H3.
    assert (Hd : Forall2 (Forall2 (isb c3)) (l :: ls ++ [la]) (zwins ws (num_windows N ws) v)).
    { pose proof (ctx_le_trans N _ _ _ Hle2 Hle3) as Hle. replace (num_windows N ws) with (S (num_windows N ws - 2 + 1)) by lia. cbn [zwins].
      constructor; [exact (isbs_le _ _ _ _ Hle Hb1)|]. rewrite zwins_app. apply Forall2_app; [now apply (isbss_le c2)|]. rewrite E. fold s2.
      constructor; [exact Hb3|constructor]. }
    assert (Hr : Forall2 (Forall2 (isb c3)) (rev (l :: ls ++ [la])) (rev (zwins ws (num_windows N ws) v))) by now apply Forall2_rev_.
    pose proof (isbss_isbit _ _ _ Hr) as Hall.
    destruct (bmap_cpl (bmap assert_bit) (fun c l => Forall (isbit c) l)) with (l := rev (l :: ls ++ [la])) (c := c3) as (us & c4 & H4 & Hle4 & Hg4 & _).
    { intros c0 c0' x Hle Hxx. eapply Forall_impl; [|exact Hxx]. intros a Ha. now apply (isbit_le c0). }
    { intros c0 x _ Hxx. apply (bmap_cpl assert_bit isbit); [intros c5 c6 a Hle Ha; now apply (isbit_le c5)| |assumption].
      intros c5 a _ [Ha Hb]. now apply assert_bit_cpl. }
    { assumption. } { assumption. }
    cbv zeta. unfold bind. rewrite H4. unfold ret. eexists _, c4. split; [reflexivity|].
    split; [eapply ctx_le_trans; [exact Hle1|]; eapply ctx_le_trans; [exact Hle2|]; eapply ctx_le_trans; [exact Hle3|exact Hle4]|].
    split; [assumption|]. exists (rev (zwins ws (num_windows N ws) v)). destruct (zwins_length ws (num_windows N ws) v) as [Z1 Z2].
    split; [now apply (isbss_le c3)|]. split; [now rewrite rev_length|]. split; [now apply Forall_rev|].
    rewrite winsN_rev, zwins_value by lia. apply Z.mod_small. split; [lia|].
    apply Z.lt_le_trans with (2 ^ 254)%Z; [unfold fr_mod in Hv0; lia|]. apply Z.pow_le_mono_r; lia.
  Qed.
  Lemma decompose_scalar_cpl c ws s : (1 <= ws <= 4)%nat -> valid c s ->
    cpl c (decompose_scalar ws s) (fun r c' => Forall (Forall (isbit c')) r).
  Proof.
    intros Hws Hv. eapply cpl_conseq; [now apply decompose_scalar_digits|]. intros r c' _ _ _ (bss & H & _). exact (isbss_isbit _ _ _ H).
  Qed.
End Scalar.
