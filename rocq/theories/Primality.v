(** Primality certificates: Fermat's little theorem and Pocklington's criterion.
    Used to show that the two BN254 moduli are primes, so that the concrete
    fields used in the examples and counterexamples exist. *)
From Coq Require Import ZArith Znumtheory Zpow_facts Lia List Bool Permutation.
Import ListNotations.
Local Open Scope Z_scope.

(** ** Fermat's little theorem *)
Definition prod (l : list Z) : Z := fold_right Z.mul 1 l.
Lemma prod_perm l l' : Permutation l l' -> prod l = prod l'.
Proof. induction 1; cbn; [reflexivity|now f_equal|ring|congruence]. Qed.
Lemma prod_map_mod p a l : 0 < p -> prod (map (fun i => a * i mod p) l) mod p = (a ^ Z.of_nat (length l) * prod l) mod p.
Proof.
  intro Hp. induction l as [|x l IH]; [cbn [map prod fold_right length Z.of_nat]; now rewrite Z.pow_0_r|].
  cbn [map length prod fold_right]. rewrite Zmult_mod_idemp_l, <- Zmult_mod_idemp_r. fold (prod (map (fun i => a * i mod p) l)).
  rewrite IH, Zmult_mod_idemp_r. fold (prod l). rewrite Nat2Z.inj_succ, Z.pow_succ_r by lia. f_equal. ring.
Qed.
Definition units (p : Z) : list Z := map Z.of_nat (seq 1 (Z.to_nat (p - 1))).
Lemma in_units p x : In x (units p) <-> 1 <= x < p.
Proof.
  unfold units. rewrite in_map_iff. split.
  - intros (i & <- & H). apply in_seq in H. lia.
  - intro H. exists (Z.to_nat x). split; [lia|]. apply in_seq. lia.
Qed.
Lemma nodup_units p : NoDup (units p).
Proof. unfold units. apply FinFun.Injective_map_NoDup; [intros x y; lia|apply seq_NoDup]. Qed.
Lemma nodup_map_in {A B} (f : A -> B) l : (forall x y, In x l -> In y l -> f x = f y -> x = y) -> NoDup l -> NoDup (map f l).
Proof.
  induction l as [|a l IH]; intros Hf Hn; [constructor|]. inversion Hn; subst. cbn. constructor.
  - rewrite in_map_iff. intros (x & E & Hx). apply H1. rewrite <- (Hf x a); auto with datatypes.
  - apply IH; auto with datatypes.
Qed.
Lemma prime_prod p l : prime p -> (forall x, In x l -> ~ (p | x)) -> ~ (p | prod l).
Proof.
  intros Hp. induction l as [|x l IH]; intros H Hd; cbn in Hd.
  - apply Z.divide_1_r in Hd. pose proof (prime_ge_2 _ Hp). lia.
  - apply prime_mult in Hd; [|assumption]. destruct Hd as [Hd|Hd]; [apply (H x); auto with datatypes|].
    apply IH; auto with datatypes.
Qed.
Lemma mod_mul_cancel p a b : prime p -> ~ (p | b) -> (a * b) mod p = b mod p -> a mod p = 1.
Proof.
  intros Hp Hb H. pose proof (prime_ge_2 _ Hp).
  assert (Hd : (p | (a - 1) * b)).
  { apply Z.mod_divide; [lia|]. replace ((a - 1) * b) with (a * b - b) by ring. rewrite Zminus_mod, H, Z.sub_diag. apply Zmod_0_l. }
  apply prime_mult in Hd; [|assumption]. destruct Hd as [[q Hq]|Hd]; [|contradiction].
  replace a with (1 + q * p) by lia. rewrite Z_mod_plus_full. apply Z.mod_small. lia.
Qed.
Theorem fermat p a : prime p -> ~ (p | a) -> a ^ (p - 1) mod p = 1.
Proof.
  intros Hp Ha. pose proof (prime_ge_2 _ Hp) as H2.
  assert (Hu : forall x, In x (units p) -> ~ (p | x)).
  { intros x Hx Hd. apply in_units in Hx. apply Z.divide_pos_le in Hd; lia. }
  assert (Hperm : Permutation (map (fun i => a * i mod p) (units p)) (units p)).
  { apply NoDup_Permutation_bis.
    - apply nodup_map_in; [|apply nodup_units]. intros x y Hx Hy E. apply in_units in Hx, Hy.
      assert (Hd : (p | a * (x - y))).
      { apply Z.mod_divide; [lia|]. rewrite Z.mul_sub_distr_l, Zminus_mod, E, Z.sub_diag. apply Zmod_0_l. }
      apply prime_mult in Hd; [|assumption]. destruct Hd as [Hd|[q Hq]]; [contradiction|].
      assert (q = 0) by nia. nia.
    - rewrite map_length. lia.
    - intros y Hy. apply in_map_iff in Hy. destruct Hy as (x & <- & Hx). apply in_units.
      pose proof (Z.mod_pos_bound (a * x) p ltac:(lia)). assert ((a * x) mod p <> 0); [|lia].
      intro E. apply Z.mod_divide in E; [|lia]. apply prime_mult in E; [|assumption].
      destruct E as [E|E]; [contradiction|]. now apply (Hu x). }
  pose proof (prod_map_mod p a (units p) ltac:(lia)) as E. rewrite (prod_perm _ _ Hperm) in E.
  assert (El : Z.of_nat (length (units p)) = p - 1).
  { unfold units. rewrite map_length, seq_length. lia. }
  rewrite El in E. symmetry in E. apply (mod_mul_cancel p _ (prod (units p))); auto.
  now apply prime_prod.
Qed.

(** ** Pocklington *)
Lemma small_factor n : 2 <= n -> prime n \/ exists p, prime p /\ (p | n) /\ p * p <= n.
Proof.
  intro Hn. assert (H0 : 0 <= n) by lia. revert n H0 Hn.
  apply (Z_lt_induction (fun n => 2 <= n -> prime n \/ exists p, prime p /\ (p | n) /\ p * p <= n)).
  intros n IH Hn. destruct (prime_dec n) as [Hp|Hp]; [now left|right].
  destruct (not_prime_divide n ltac:(lia) Hp) as (d & Hd & [e He]).
  assert (Hde : exists f, 2 <= f < n /\ (f | n) /\ f * f <= n).
  { destruct (Z_le_gt_dec d e); [exists d|exists e]; (split; [nia|]); (split; [|nia]); [exists e|exists d]; lia. }
  destruct Hde as (f & Hf & Hfn & Hff). destruct (IH f ltac:(lia) ltac:(lia)) as [Hpf|(p & Hpp & Hpf & Hps)].
  - exists f. auto.
  - exists p. split; [assumption|]. split; [now apply Z.divide_trans with f|]. lia.
Qed.

Lemma pow_mod_1 p a k : 1 < p -> 0 <= k -> a mod p = 1 -> a ^ k mod p = 1.
Proof. intros Hp Hk H. rewrite Zpower_mod, H, Z.pow_1_l by lia. apply Z.mod_small. lia. Qed.
Lemma pow_gcd p a x y : prime p -> ~ (p | a) -> 0 < x -> 0 < y -> a ^ x mod p = 1 -> a ^ y mod p = 1 -> a ^ Z.gcd x y mod p = 1.
Proof.
  intros Hp Ha Hx Hy Ex Ey. pose proof (prime_ge_2 _ Hp) as H2.
  destruct (Z.gcd_bezout x y (Z.gcd x y) eq_refl) as (u & v & Huv).
  (* shift so that u >= 0 and v <= 0 *)
  set (k := Z.abs u + Z.abs v). assert (Hk : (u + k * y) * x = (k * x - v) * y + Z.gcd x y) by (rewrite <- Huv; ring).
  assert (Hu : 0 <= u + k * y) by (unfold k; nia). assert (Hv : 0 <= k * x - v) by (unfold k; nia).
  assert (Hg : 0 <= Z.gcd x y) by apply Z.gcd_nonneg.
  assert (E1 : a ^ ((u + k * y) * x) mod p = 1).
  { rewrite Z.mul_comm, Z.pow_mul_r by lia. apply pow_mod_1; auto; lia. }
  rewrite Hk, Z.pow_add_r, (Z.mul_comm (k * x - v)), Z.pow_mul_r in E1 by nia.
  rewrite <- Zmult_mod_idemp_l, (pow_mod_1 p (a ^ y)), Z.mul_1_l in E1 by (auto; lia). exact E1.
Qed.

Lemma pock_prime n a q p : prime q -> prime p -> (p | n) -> 1 < n -> (q | n - 1) -> a ^ (n - 1) mod n = 1 ->
  Z.gcd (a ^ ((n - 1) / q) - 1) n = 1 -> (q | p - 1).
Proof.
  intros Hq Hp Hpn Hn [m Hm] E Hg. pose proof (prime_ge_2 _ Hp) as H2. pose proof (prime_ge_2 _ Hq) as Hq2.
  assert (Hm' : (n - 1) / q = m) by (rewrite Hm; apply Z.div_mul; lia). rewrite Hm' in Hg.
  assert (Hm0 : 0 < m) by nia.
  assert (Ep : a ^ (n - 1) mod p = 1).
  { destruct Hpn as [k ->]. assert (0 < k) by nia.
    assert (Hd : (p | a ^ (k * p - 1) - 1)).
    { apply Z.divide_trans with (k * p); [exists k; reflexivity|]. apply Z.mod_divide; [lia|].
      rewrite Zminus_mod, E, (Z.mod_small 1) by lia. reflexivity. }
    destruct Hd as [j Hj]. replace (a ^ (k * p - 1)) with (1 + j * p) by lia. rewrite Z_mod_plus_full. apply Z.mod_small. lia. }
  assert (Ha : ~ (p | a)).
  { intro Hd. assert (Hz : (p | a ^ (n - 1))) by (replace (n - 1) with (Z.succ (n - 2)) by lia; rewrite Z.pow_succ_r by lia;
      now apply Z.divide_mul_l). apply Z.mod_divide in Hz; lia. }
  destruct (Zdivide_dec q (p - 1)) as [Hd|Hd]; [assumption|exfalso].
  pose proof (fermat p a Hp Ha) as Ef.
  pose proof (pow_gcd p a (n - 1) (p - 1) Hp Ha ltac:(lia) ltac:(lia) Ep Ef) as Egc.
  assert (Hgm : (Z.gcd (n - 1) (p - 1) | m)).
  { apply Gauss with (b := q).
    - replace (q * m) with (n - 1) by lia. apply Z.gcd_divide_l.
    - apply rel_prime_sym, prime_rel_prime; [assumption|]. intro Hx. apply Hd. apply Z.divide_trans with (1 := Hx). apply Z.gcd_divide_r. }
  destruct Hgm as [j Hj].
  assert (Hg0 : 0 < Z.gcd (n - 1) (p - 1)).
  { pose proof (Z.gcd_nonneg (n - 1) (p - 1)). assert (Z.gcd (n - 1) (p - 1) <> 0); [|lia].
    intro Hz. apply Z.gcd_eq_0_l in Hz. lia. }
  assert (Em : a ^ m mod p = 1).
  { rewrite Hj, Z.mul_comm, Z.pow_mul_r by nia. apply pow_mod_1; auto; nia. }
  assert (Hpd : (p | Z.gcd (a ^ m - 1) n)).
  { apply Z.gcd_greatest; [|assumption]. apply Z.mod_divide; [lia|]. rewrite Zminus_mod, Em, (Z.mod_small 1) by lia. reflexivity. }
  rewrite Hg in Hpd. apply Z.divide_1_r in Hpd. lia.
Qed.

(** Square-and-multiply modulo [n], the quotients given: the value and the exponent
    reached after the listed bits. *)
Fixpoint chain (n a acc e : Z) (l : list (bool * Z)) : Z * Z :=
  match l with
  | [] => (acc, e)
  | (b, k) :: l => chain n a ((if b then a * (acc * acc) else acc * acc) - k * n) (2 * e + if b then 1 else 0) l
  end.
Lemma chain_ok n a l : forall acc e, 0 <= e -> acc mod n = a ^ e mod n ->
  forall v e', chain n a acc e l = (v, e') -> 0 <= e' /\ v mod n = a ^ e' mod n.
Proof.
  induction l as [|[b k] l IH]; intros acc e He Ha v e' H; cbn [chain] in H; [injection H as <- <-; now split|].
  apply IH in H; [assumption|destruct b; lia|]. rewrite <- Zminus_mod_idemp_r, Z_mod_mult, Z.sub_0_r.
  assert (Hs : (acc * acc) mod n = a ^ (2 * e) mod n).
  { replace (2 * e) with (e + e) by lia. rewrite Z.pow_add_r by assumption. rewrite Zmult_mod, Ha. now rewrite <- Zmult_mod. }
  destruct b; [|rewrite Z.add_0_r; exact Hs]. rewrite Z.pow_add_r, Z.pow_1_r by lia.
  rewrite Zmult_mod, Hs, <- Zmult_mod. f_equal. ring.
Qed.
(** One entry per prime factor [q] of [n - 1]: the chain for [b = a^((n-1)/q)] and the one for [b^q]. *)
Definition entry : Type := Z * (list (bool * Z) * list (bool * Z)).
Definition entry_check (n a : Z) (x : entry) : bool :=
  let '(q, (l1, l2)) := x in
  let '(b, m) := chain n a 1 0 l1 in let '(o, q') := chain n b 1 0 l2 in
  (m * q =? n - 1) && (q' =? q) && (o =? 1) && (Z.gcd (b - 1) n =? 1).
Definition pock_check (n a : Z) (c : list entry) : bool :=
  (1 <? n) && (n <? prod (map fst c) * prod (map fst c)) && forallb (entry_check n a) c.

Lemma prod_divide qs x : Forall prime qs -> NoDup qs -> Forall (fun q => (q | x)) qs -> (prod qs | x).
Proof.
  induction qs as [|q qs IH]; intros Hp Hn Hd; cbn [prod fold_right]; [apply Z.divide_1_l|].
  inversion Hp; inversion Hn; inversion Hd; subst. fold (prod qs).
  destruct (IH H2 H6 H10) as [k Hk]. rewrite Hk.
  assert (Hqk : (q | k)); [|now apply Z.mul_divide_mono_r].
  apply Gauss with (b := prod qs); [now rewrite Z.mul_comm, <- Hk|].
  apply prime_rel_prime; [assumption|]. intro Hx. revert Hx. apply prime_prod; [assumption|].
  intros y Hy Hqy. apply H5. assert (Hpy : prime y) by (rewrite Forall_forall in H2; auto).
  destruct (prime_divisors y Hpy q Hqy) as [E|[E|[E|E]]]; pose proof (prime_ge_2 _ H1); pose proof (prime_ge_2 _ Hpy); try lia.
  now subst.
Qed.

Theorem pocklington n a c : Forall prime (map fst c) -> NoDup (map fst c) -> pock_check n a c = true -> prime n.
Proof.
  intros Hp Hn H. unfold pock_check in H. rewrite !andb_true_iff in H. destruct H as ((H1 & H3) & H4).
  apply Z.ltb_lt in H1, H3. rewrite forallb_forall in H4.
  destruct (small_factor n ltac:(lia)) as [|(p & Hpp & Hpn & Hps)]; [assumption|exfalso].
  assert (Hd : (prod (map fst c) | p - 1)).
  { apply prod_divide; auto. rewrite Forall_forall in *. intros q Hq. assert (Hqp : prime q) by auto. pose proof (prime_ge_2 _ Hqp) as Hq2.
    apply in_map_iff in Hq. destruct Hq as ([q0 [l1 l2]] & E0 & Hin). cbn [fst] in E0. subst q0.
    specialize (H4 _ Hin). unfold entry_check in H4.
    destruct (chain n a 1 0 l1) as [b m] eqn:E1. destruct (chain n b 1 0 l2) as [o q'] eqn:E2.
    rewrite !andb_true_iff in H4. destruct H4 as (((C1 & C2) & C3) & C4). apply Z.eqb_eq in C1, C2, C3, C4. subst q' o.
    apply chain_ok in E1; [|lia|now rewrite Z.pow_0_r]. apply chain_ok in E2; [|lia|now rewrite Z.pow_0_r].
    destruct E1 as [Hm E1], E2 as [_ E2].
    assert (Em : (n - 1) / q = m) by (rewrite <- C1; apply Z.div_mul; lia).
    apply (pock_prime n a q p); auto.
    - exists m. lia.
    - rewrite <- C1, Z.pow_mul_r, Zpower_mod, <- E1, <- Zpower_mod, <- E2 by lia. apply Z.mod_small. lia.
    - rewrite Em. refine (eq_trans _ C4).
      assert (G : forall x, Z.gcd x n = Z.gcd (x mod n) n) by (intro; rewrite Z.gcd_mod, Z.gcd_comm by lia; reflexivity).
      rewrite (G (a ^ m - 1)), (G (b - 1)). now rewrite <- Zminus_mod_idemp_l, <- E1, Zminus_mod_idemp_l. }
  set (qs := map fst c) in *. clearbody qs. pose proof (prime_ge_2 _ Hpp). apply Z.divide_pos_le in Hd; [|lia].
  assert (0 <= prod qs).
  { clear - Hp. induction qs as [|q qs IH]; cbn; [lia|]. inversion Hp; subst. pose proof (prime_ge_2 _ H1). specialize (IH H2). unfold prod in IH. nia. }
  nia.
Qed.

(** ** Trial division, for the leaves of the certificates *)
Definition trial (n : Z) : bool :=
  (1 <? n) && forallb (fun d => negb (n mod Z.of_nat d =? 0)) (seq 2 (Z.to_nat (Z.sqrt n) - 1)).
Lemma trial_prime n : trial n = true -> prime n.
Proof.
  unfold trial. rewrite andb_true_iff, forallb_forall. intros [H1 H2]. apply Z.ltb_lt in H1.
  destruct (small_factor n ltac:(lia)) as [|(p & Hp & Hd & Hs)]; [assumption|exfalso].
  pose proof (prime_ge_2 _ Hp). specialize (H2 (Z.to_nat p)).
  assert (Hsq : p <= Z.sqrt n) by (apply Z.sqrt_le_square; lia).
  rewrite Z2Nat.id in H2 by lia. rewrite in_seq in H2. apply negb_true_iff, Z.eqb_neq in H2; [|lia].
  apply H2, Z.mod_divide; [lia|assumption].
Qed.
