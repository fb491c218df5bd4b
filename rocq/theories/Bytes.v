(** Little-endian byte strings.  A byte is an integer in [0, 256).  Nothing here
    models repository code. *)
From Coq Require Import ZArith Lia List.
Import ListNotations.
Local Open Scope Z_scope.

Definition byte (b : Z) : Prop := 0 <= b < 256.

(** the [n] low bytes of [z], least significant first *)
Fixpoint le (n : nat) (z : Z) : list Z :=
  match n with O => [] | S n => z mod 256 :: le n (z / 256) end.
Fixpoint leval (l : list Z) : Z :=
  match l with [] => 0 | b :: l => b + 256 * leval l end.

Lemma le_length n z : length (le n z) = n.
Proof. revert z; induction n; intro z; cbn; [reflexivity|now rewrite IHn]. Qed.
Lemma le_bytes n z : Forall byte (le n z).
Proof. revert z; induction n; intro z; cbn; constructor; [|apply IHn]. unfold byte. apply Z.mod_pos_bound. lia. Qed.
Lemma pow256_S n : 256 ^ Z.of_nat (S n) = 256 * 256 ^ Z.of_nat n.
Proof. rewrite Nat2Z.inj_succ, Z.pow_succ_r by lia. reflexivity. Qed.
Lemma pow256_pos n : 0 < 256 ^ Z.of_nat n.
Proof. apply Z.pow_pos_nonneg; lia. Qed.
Lemma leval_le n z : 0 <= z < 256 ^ Z.of_nat n -> leval (le n z) = z.
Proof.
  revert z; induction n; intros z H; [cbn in H; cbn; lia|]. rewrite pow256_S in H. cbn [le leval].
  pose proof (pow256_pos n). rewrite IHn.
  - rewrite (Z.div_mod z 256) at 3 by lia. lia.
  - split; [apply Z.div_pos; lia|]. apply Z.div_lt_upper_bound; lia.
Qed.
Lemma leval_bounds l : Forall byte l -> 0 <= leval l < 256 ^ Z.of_nat (length l).
Proof.
  induction 1 as [|b l Hb _ IH]; [cbn; lia|]. cbn [length leval]. rewrite pow256_S. unfold byte in Hb. lia.
Qed.
Lemma le_leval l : Forall byte l -> le (length l) (leval l) = l.
Proof.
  induction 1 as [|b l Hb _ IH]; [reflexivity|]. cbn [length leval le]. unfold byte in Hb.
  replace (b + 256 * leval l) with (b + leval l * 256) by lia.
  rewrite Z.mod_add, Z.div_add by lia. rewrite Z.mod_small, Z.div_small by lia. cbn [Z.add]. now rewrite IH.
Qed.
Lemma leval_inj l l' : Forall byte l -> Forall byte l' -> length l = length l' -> leval l = leval l' -> l = l'.
Proof. intros H H' E V. rewrite <- (le_leval l H), <- (le_leval l' H'). now rewrite E, V. Qed.
Lemma leval_app l l' : leval (l ++ l') = leval l + 256 ^ Z.of_nat (length l) * leval l'.
Proof.
  induction l as [|b l IH]; [cbn [app length leval Z.of_nat]; rewrite Z.pow_0_r; lia|].
  cbn [app length leval]. rewrite IH, pow256_S. ring.
Qed.
Lemma leval_zeros n : leval (repeat 0 n) = 0.
Proof. induction n; [reflexivity|]. cbn [repeat leval]. rewrite IHn. reflexivity. Qed.
Lemma le_inj n z z' : 0 <= z < 256 ^ Z.of_nat n -> 0 <= z' < 256 ^ Z.of_nat n -> le n z = le n z' -> z = z'.
Proof. intros H H' E. rewrite <- (leval_le n z H), <- (leval_le n z' H'). now rewrite E. Qed.

Lemma firstn_app_l {A} (l l' : list A) n : length l = n -> firstn n (l ++ l') = l.
Proof. intros <-. rewrite firstn_app, Nat.sub_diag, firstn_all. cbn. apply app_nil_r. Qed.
Lemma skipn_app_l {A} (l l' : list A) n : length l = n -> skipn n (l ++ l') = l'.
Proof. intros <-. rewrite skipn_app, Nat.sub_diag, skipn_all. reflexivity. Qed.
Lemma app_inv_len {A} (a b a' b' : list A) : length a = length a' -> a ++ b = a' ++ b' -> a = a' /\ b = b'.
Proof.
  revert a'. induction a as [|x a IH]; intros [|x' a'] L E; cbn in *; try discriminate; [auto|].
  injection L as L. injection E as -> E. destruct (IH a' L E) as [-> ->]. auto.
Qed.
