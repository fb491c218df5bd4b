(** Commitment keys (C19): the names under which commitments enter a schema
    determine the commitment, so that merging equal names never merges
    different points. *)
From Coq Require Import Decimal DecimalString String Ascii NArith ZArith Arith Bool Lia List.
From Verif Require Import Util Algebra Poly Schema SchemaProofs Plonk PowLagrange PlonkSpec PlonkProofs MultiopenProofs.
Import ListNotations.
Local Open Scope string_scope.

(** ** Strings *)
Lemma sapp_assoc (a b c : string) : (a ++ b) ++ c = a ++ (b ++ c).
Proof. induction a as [|x a IH]; cbn; [reflexivity|]. now rewrite IH. Qed.
Lemma sapp_nil_r (a : string) : a ++ "" = a.
Proof. induction a as [|x a IH]; cbn; [reflexivity|]. now rewrite IH. Qed.
Lemma sapp_inv_head (a b c : string) : a ++ b = a ++ c -> b = c.
Proof. induction a as [|x a IH]; cbn; intro H; [exact H|]. inversion H. auto. Qed.

Definition is_digit (a : ascii) : bool :=
  let n := nat_of_ascii a in Nat.leb 48 n && Nat.leb n 57.
Fixpoint all_digits (s : string) : bool :=
  match s with "" => true | String a s => is_digit a && all_digits s end.
Definition hd_digit (s : string) : bool :=
  match s with "" => false | String a _ => is_digit a end.

Lemma string_of_uint_digits d : all_digits (NilEmpty.string_of_uint d) = true.
Proof. induction d; cbn; auto. Qed.
Lemma fmt_nat_digits n : all_digits (fmt_nat n) = true.
Proof.
  unfold fmt_nat. destruct (Nat.to_uint n) eqn:E; [reflexivity|..];
    rewrite <- E; unfold NilZero.string_of_uint; rewrite E; apply string_of_uint_digits.
Qed.
Lemma fmt_nat_ne n : exists a s, fmt_nat n = String a s.
Proof.
  unfold fmt_nat. destruct (Nat.to_uint n) eqn:E; cbn; eauto.
Qed.

(** Unique decoding: digits followed by something that is not a digit. *)
Lemma digits_split (a b : string) : forall c d,
  all_digits a = true -> all_digits c = true -> hd_digit b = false -> hd_digit d = false ->
  a ++ b = c ++ d -> a = c /\ b = d.
Proof.
  induction a as [|x a IH]; intros [|y c] d Ha Hc Hb Hd H; cbn in *.
  - auto.
  - subst b. cbn in Hb. apply andb_true_iff in Hc. destruct Hc. congruence.
  - subst d. cbn in Hd. apply andb_true_iff in Ha. destruct Ha. congruence.
  - inversion H; subst. apply andb_true_iff in Ha. apply andb_true_iff in Hc.
    destruct (IH c d) as [-> ->]; tauto.
Qed.

Lemma fmt_split i j b d :
  hd_digit b = false -> hd_digit d = false -> fmt_nat i ++ b = fmt_nat j ++ d -> i = j /\ b = d.
Proof.
  intros Hb Hd H. apply digits_split in H; auto using fmt_nat_digits.
  destruct H as [H1 H2]. split; [now apply fmt_nat_inj|exact H2].
Qed.
Lemma fmt_split_end i j : fmt_nat i = fmt_nat j -> i = j.
Proof. apply fmt_nat_inj. Qed.

(** ** The naming scheme *)
(** Kinds of commitments of one proof; the integers are indices. *)
Inductive kind :=
| KInstance (c : nat) | KAdvice (c : nat) | KFixed (c : nat) | KPermCommon (i : nat)
| KPermProduct (k i : nat) | KLookupProduct (k j : nat) | KLookupInput (k j : nat) | KLookupTable (k j : nat)
| KH (i : nat) | KRandom | KW (i : nat).

Definition suffix (k : kind) : string :=
  match k with
  | KInstance c => "_instance_commitments" ++ fmt_nat c
  | KAdvice c => "_advice_commitments" ++ fmt_nat c
  | KFixed c => "_fixed_commitments" ++ fmt_nat c
  | KPermCommon i => "_permutation_commitments" ++ fmt_nat i
  | KPermProduct k i => "_" ++ fmt_nat k ++ "_permutation_product_commitment_" ++ fmt_nat i
  | KLookupProduct k j => "_" ++ fmt_nat k ++ "_" ++ fmt_nat j ++ "_product_commitment"
  | KLookupInput k j => "_" ++ fmt_nat k ++ "_" ++ fmt_nat j ++ "_permuted_input_commitment"
  | KLookupTable k j => "_" ++ fmt_nat k ++ "_" ++ fmt_nat j ++ "_permuted_table_commitment"
  | KH i => "_h_commitment" ++ fmt_nat i
  | KRandom => "_random_commitment"
  | KW i => "_w" ++ fmt_nat i
  end.

Ltac digit_clash H :=
  match type of H with
  | fmt_nat ?n ++ _ = String _ _ => 
      let a := fresh in let s := fresh in let E := fresh in let D := fresh in
      destruct (fmt_nat_ne n) as [a [s E]]; pose proof (fmt_nat_digits n) as D; rewrite E in D, H;
      cbn in H; inversion H; subst; cbn in D; discriminate
  | String _ _ = fmt_nat ?n ++ _ => symmetry in H; digit_clash H
  end.

Lemma suffix_inj k1 k2 : suffix k1 = suffix k2 -> k1 = k2.
Proof.
  intro H; destruct k1, k2; cbn [suffix append] in H; try discriminate H; try reflexivity;
    try (injection H as H; try digit_clash H; try (apply fmt_nat_inj in H; subst; reflexivity)).
  all: apply fmt_split in H; [|reflexivity|reflexivity]; destruct H as [-> H]; cbn [append] in H; try discriminate H.
  all: try (injection H as H; try digit_clash H; try (apply fmt_nat_inj in H; subst; reflexivity)).
  all: apply fmt_split in H; [|reflexivity|reflexivity]; destruct H as [-> H]; try discriminate H; reflexivity.
Qed.

Lemma suffix_head k : exists s, suffix k = String "_" s.
Proof. destruct k; cbn [suffix append]; eauto. Qed.

(** Automaton recognising "_p" followed by a digit. *)
Inductive st := S0 | S1 | S2 | SF.
Definition step (q : st) (a : ascii) : st :=
  match q with
  | SF => SF
  | _ => if Ascii.eqb a "_" then S1
         else match q with
              | S1 => if Ascii.eqb a "p" then S2 else S0
              | S2 => if is_digit a then SF else S0
              | _ => S0
              end
  end.
Fixpoint run (s : string) (q : st) : st :=
  match s with "" => q | String a s => run s (step q a) end.
Lemma run_app a b q : run (a ++ b) q = run b (run a q).
Proof. revert q; induction a as [|x a IH]; intro q; cbn; auto. Qed.
Lemma run_SF s : run s SF = SF.
Proof. induction s; cbn; auto. Qed.
Lemma digit_not_us a : is_digit a = true -> Ascii.eqb a "_" = false /\ Ascii.eqb a "p" = false.
Proof.
  intro H. split; destruct (Ascii.eqb_spec a "_"); destruct (Ascii.eqb_spec a "p"); subst; try reflexivity; cbn in H; discriminate.
Qed.
Lemma step_digit a : is_digit a = true -> step S0 a = S0 /\ step S1 a = S0 /\ step S2 a = SF.
Proof. intro H. destruct (digit_not_us a H) as [E1 E2]. unfold step. rewrite E1, E2, H. auto. Qed.
Lemma run_digits0 s : all_digits s = true -> run s S0 = S0.
Proof.
  induction s as [|a s IH]; [reflexivity|]. cbn [all_digits run]. intro H. apply andb_true_iff in H.
  destruct H as [H1 H2]. rewrite (proj1 (step_digit a H1)). auto.
Qed.
Lemma run_fmt0 n : run (fmt_nat n) S0 = S0.
Proof. apply run_digits0, fmt_nat_digits. Qed.
Lemma run_fmt1 n : run (fmt_nat n) S1 = S0.
Proof.
  destruct (fmt_nat_ne n) as [a [s E]]. assert (D := fmt_nat_digits n). rewrite E in *. cbn [run all_digits] in D |- *.
  apply andb_true_iff in D. destruct D as [D1 D2]. rewrite (proj1 (proj2 (step_digit a D1))). now apply run_digits0.
Qed.
Lemma run_fmt2 n : run (fmt_nat n) S2 = SF.
Proof.
  destruct (fmt_nat_ne n) as [a [s E]]. assert (D := fmt_nat_digits n). rewrite E in *. cbn [run all_digits] in D |- *.
  apply andb_true_iff in D. destruct D as [D1 D2]. rewrite (proj2 (proj2 (step_digit a D1))). apply run_SF.
Qed.

Lemma suffix_no_marker k : run (suffix k) S0 <> SF.
Proof.
  destruct k; cbn [suffix]; rewrite ?run_app;
    repeat first
      [ rewrite run_fmt0 | rewrite run_fmt1
      | match goal with
        | |- context [run (String ?a ?s) S0] =>
            let v := eval vm_compute in (run (String a s) S0) in change (run (String a s) S0) with v
        end ];
    discriminate.
Qed.

(** Splitting two concatenations. *)
Lemma sapp_split (a b : string) : forall c d, a ++ b = c ++ d ->
  (exists z, c = a ++ z /\ b = z ++ d) \/ (exists z, a = c ++ z /\ d = z ++ b).
Proof.
  induction a as [|x a IH]; intros [|y c] d H; cbn in H.
  - left. exists "". auto.
  - left. exists (String y c). auto.
  - right. exists (String x a). auto.
  - inversion H; subst. destruct (IH c d H2) as [[z [-> ->]]|[z [-> ->]]]; [left|right]; exists z; auto.
Qed.

(** The proof keys used by verify_circuit.rs:140 and :454. *)
Definition proof_key (name : string) (i : nat) : string := name ++ "_p" ++ fmt_nat i.

Lemma run_mono s : forall q, run s S0 = SF -> run s q = SF.
Proof.
  (* reading from a later state recognises at least as much; by cases on the first characters *)
  assert (L : forall q q', (q' = S0 -> True) ->
    (match q', q with S0, _ => True | SF, SF => True | S1, S1 => True | S2, S2 => True | _, SF => True | _, _ => False end) ->
    forall a, (match step q' a, step q a with S0, _ => True | SF, SF => True | S1, S1 => True | S2, S2 => True | _, SF => True | _, _ => False end)).
  { intros q q' _ H a. unfold step. destruct q', q; try contradiction H; destruct (Ascii.eqb a "_"); try exact I;
      destruct (Ascii.eqb a "p"); try exact I; destruct (is_digit a); exact I. }
  assert (G : forall s q' q,
    (match q', q with S0, _ => True | SF, SF => True | S1, S1 => True | S2, S2 => True | _, SF => True | _, _ => False end) ->
    run s q' = SF -> run s q = SF).
  { clear s. induction s as [|a s IH]; intros q' q H E; cbn in *.
    - subst. destruct q; try contradiction; reflexivity.
    - eapply IH; [|exact E]. apply L; auto. }
  intros q H. eapply G; [|exact H]. destruct q; exact I.
Qed.

Lemma digits_app_inv (a b : string) : all_digits (a ++ b) = true -> all_digits a = true /\ all_digits b = true.
Proof.
  induction a as [|x a IH]; cbn; [auto|]. intro H. apply andb_true_iff in H. destruct H as [H1 H2].
  apply IH in H2. rewrite H1. tauto.
Qed.

Lemma key_part_no_overlap name i z k x :
  z <> "" -> proof_key name i = x ++ z -> forall r, suffix k = z ++ r -> False.
Proof.
  intros Hz H r Hs. destruct (suffix_head k) as [t Ht]. rewrite Ht in Hs.
  destruct z as [|a z]; [congruence|]. cbn in Hs. injection Hs as Ea Es. subst a.
  unfold proof_key in H. apply sapp_split in H. destruct H as [[y [Hx Hy]]|[y [Hx Hy]]].
  - (* the cut is inside "_p<i>" *)
    destruct y as [|c y]; cbn in Hy.
    + (* z = "_p<i>" *) injection Hy as Hy. subst z.
      apply (suffix_no_marker k). rewrite Ht. subst t.
      change (run (fmt_nat i ++ r) S2 = SF). rewrite run_app, run_fmt2. apply run_SF.
    + injection Hy as _ Hy. destruct y as [|c' y]; cbn in Hy; [discriminate|].
      injection Hy as _ Hy. assert (D := fmt_nat_digits i). rewrite Hy in D. apply digits_app_inv in D.
      destruct D as [_ D]. cbn in D. discriminate.
  - (* z contains "_p<i>" entirely *)
    apply (suffix_no_marker k). rewrite Ht. subst t. 
    change (String "_" (z ++ r)) with ((String "_" z) ++ r). rewrite Hy.
    rewrite ?run_app.
    assert (E : run (fmt_nat i) (run "_p" (run y S0)) = SF).
    { destruct (run y S0) eqn:Ey; cbn; try apply run_fmt2. apply run_SF. }
    rewrite E. apply run_SF.
Qed.

Lemma full_key_inj n1 i1 k1 n2 i2 k2 :
  proof_key n1 i1 ++ suffix k1 = proof_key n2 i2 ++ suffix k2 ->
  proof_key n1 i1 = proof_key n2 i2 /\ k1 = k2.
Proof.
  intro H. assert (H' := H). apply sapp_split in H'. destruct H' as [[z [E1 E2]]|[z [E1 E2]]].
  - destruct z as [|a z].
    + rewrite sapp_nil_r in E1. cbn in E2. split; [auto|]. now apply suffix_inj.
    + exfalso. eapply key_part_no_overlap; [|exact E1|exact E2]. discriminate.
  - destruct z as [|a z].
    + rewrite sapp_nil_r in E1. cbn in E2. split; [auto|]. symmetry. now apply suffix_inj.
    + exfalso. eapply key_part_no_overlap; [|exact E1|exact E2]. discriminate.
Qed.

Lemma proof_key_inj n1 i1 i2 : proof_key n1 i1 = proof_key n1 i2 -> i1 = i2.
Proof.
  unfold proof_key. intro H. apply sapp_inv_head in H. cbn in H. injection H as H. now apply fmt_nat_inj.
Qed.

(** different names and indices give different keys *)
Lemma proof_key_inj2 n1 i1 n2 i2 : proof_key n1 i1 = proof_key n2 i2 -> n1 = n2 /\ i1 = i2.
Proof.
  assert (G : forall z i1 i2, "_p" ++ fmt_nat i1 = z ++ "_p" ++ fmt_nat i2 -> z = "").
  { clear. intros z i1 i2 H. destruct z as [|a z]; [reflexivity|]. exfalso. cbn in H. injection H as _ H.
    destruct z as [|b z]; cbn in H; [discriminate|]. injection H as _ H.
    assert (D := fmt_nat_digits i1). rewrite H in D. apply digits_app_inv in D. destruct D as [_ D].
    cbn in D. discriminate. }
  intro H. unfold proof_key in H. assert (H' := H). apply sapp_split in H'. destruct H' as [[z [E1 E2]]|[z [E1 E2]]].
  - assert (z = "") by (eapply G; exact E2). subst z. rewrite sapp_nil_r in E1. subst.
    split; [reflexivity|]. now apply (proof_key_inj n1).
  - assert (z = "") by (eapply G; exact E2). subst z. rewrite sapp_nil_r in E1. subst.
    split; [reflexivity|]. now apply (proof_key_inj n2).
Qed.

Section KeyTable.
  Variable F : Fld.
  Variable M : Mod F.

  (** verify.rs:282 and :332: keys of the permutation and lookup records. *)
  Definition keys_built (p : params F M) : Prop :=
    (forall k pe, nth_error (p_permutation p) k = Some pe -> pe_key pe = p_key p ++ "_" ++ fmt_nat k) /\
    (forall k lks j le, nth_error (p_lookup p) k = Some lks -> nth_error lks j = Some le ->
                        le_key le = p_key p ++ "_" ++ fmt_nat k ++ "_" ++ fmt_nat j).

  (** The point a verification instance (with one proof) holds under each name. *)
  Definition kind_point (p : params F M) (k : kind) : option M :=
    match k with
    | KInstance c => do cs <- nth_error (p_instance_commitments p) 0; nth_error cs c
    | KAdvice c => do cs <- nth_error (p_advice_commitments p) 0; nth_error cs c
    | KFixed c => nth_error (p_fixed_commitments p) c
    | KPermCommon i => nth_error (p_permutation_commitments p) i
    | KPermProduct k i => do pe <- nth_error (p_permutation p) k;
                          do s <- nth_error (pe_sets pe) i; Some (ps_commitment s)
    | KLookupProduct k j => do l <- nth_error (p_lookup p) k; do le <- nth_error l j; Some (le_product_commitment le)
    | KLookupInput k j => do l <- nth_error (p_lookup p) k; do le <- nth_error l j; Some (le_permuted_input_commitment le)
    | KLookupTable k j => do l <- nth_error (p_lookup p) k; do le <- nth_error l j; Some (le_permuted_table_commitment le)
    | KH i => nth_error (rev (p_vanish_commitments p)) i
    | KRandom => Some (p_random_commitment p)
    | KW i => nth_error (p_w p) i
    end.

  Definition named (p : params F M) (nc : string * M) : Prop :=
    exists k, fst nc = p_key p ++ suffix k /\ kind_point p k = Some (snd nc).

  Definition q_named (p : params F M) (q : query F M) : Prop :=
    Forall (named p) (commit_pairs (q_s q)).

  Lemma query_new_named p rot key pt c e k :
    key = p_key p ++ suffix k -> kind_point p k = Some c -> q_named p (query_new rot key pt c e).
  Proof.
    intros H1 H2. unfold q_named. cbn [query_new q_s sch_add commit_pairs cq_commitment app cq_key].
    constructor; [|constructor]. exists k. auto.
  Qed.

  Lemma column_queries_named (p : params F M) sfx qs cs evs r (K : nat -> kind) :
    (forall c, p_key p ++ sfx ++ fmt_nat c = p_key p ++ suffix (K c)) ->
    (forall c, kind_point p (K c) = nth_error cs c) ->
    column_queries p sfx qs cs evs = Some r -> Forall (q_named p) r.
  Proof.
    intros HK HP. apply Forall_mapM. intros [i [column at_]] q H.
    destruct (rotate_omega _ _ _); [|discriminate]. destruct (nth_error cs column) eqn:E; [|discriminate].
    destruct (nth_error evs i); [|discriminate]. inversion H; subst.
    apply query_new_named with (k := K column); [apply HK|]. now rewrite HP.
  Qed.

  Lemma h_pairs (xn : F) key : forall (l : list (nat * M)) acc x,
    In x (commit_pairs (fold_left (fun acc commitment => sch_add (sch_mul (SScalar xn) acc) commitment)
            (map (fun ic => SCommitment (mkCQ (key ++ "_h_commitment" ++ fmt_nat (fst ic)) (Some (snd ic)) None)) l) acc)) ->
    In x (commit_pairs acc) \/ exists ic, In ic l /\ x = (key ++ "_h_commitment" ++ fmt_nat (fst ic), snd ic).
  Proof.
    induction l as [|ic l IH]; intros acc x H; [left; exact H|].
    cbn [map fold_left] in H. apply IH in H. destruct H as [H|[ic' [H1 H2]]].
    - cbn [commit_pairs sch_add sch_mul app cq_commitment cq_key] in H. apply in_app_or in H.
      destruct H as [H|[H|[]]]; [now left|right]. exists ic. split; [now left|now symmetry].
    - right. exists ic'. split; [now right|exact H2].
  Qed.

  Lemma queries_named (p : params F M) qs :
    keys_built p -> (length (p_instance_commitments p) <= 1)%nat -> queries p = Some qs ->
    Forall (q_named p) qs.
  Proof.
    intros [HKp HKl] H1 H. unfold queries in H.
    destruct (get_lagrange_commits _ _ _ _ _ _) as [ls|]; [|discriminate].
    destruct (nth_error ls 0) as [l_0|]; [|discriminate].
    destruct (nth_error ls (p_l p)) as [l_last|]; [|discriminate].
    destruct (Nat.eqb (p_l p) 0); [discriminate|].
    destruct (mapM (proof_expressions _ _ _ _) _) as [ex|]; [|discriminate].
    destruct (mapM (proof_queries p) _) as [pq|] eqn:E1; [|discriminate].
    destruct (column_queries _ _ _ _ _) as [fq|] eqn:E2; [|discriminate].
    destruct (vanish_queries _ _ _ _ _ _ _ _ _) as [vq|] eqn:E3; [|discriminate].
    inversion H; subst; clear H. rewrite !Forall_app. split; [|split; [|split]].
    - apply Forall_concat. rewrite Forall_forall. intros r Hr.
      apply mapM_Forall2 in E1.
      assert (HX : exists i, In i (seq 0 (length (p_instance_commitments p))) /\ proof_queries p i = Some r).
      { clear -E1 Hr. induction E1 as [|i b l r' H E IH]; [destruct Hr|].
        destruct Hr as [->|Hr]; [exists i; split; [now left|exact H]|].
        destruct (IH Hr) as [j [J1 J2]]. exists j. split; [now right|exact J2]. }
      destruct HX as [i [Hi HX]]. apply in_seq in Hi. assert (i = 0)%nat by lia. subst i. clear Hi.
      unfold proof_queries in HX.
      destruct (nth_error (p_instance_commitments p) 0) as [ics|] eqn:Ei; [|discriminate].
      destruct (nth_error (p_instance_evals p) 0); [|discriminate].
      destruct (nth_error (p_advice_commitments p) 0) as [acs|] eqn:Ea; [|discriminate].
      destruct (nth_error (p_advice_evals p) 0); [|discriminate].
      destruct (nth_error (p_permutation p) 0) as [pe|] eqn:Ep; [|discriminate].
      destruct (nth_error (p_lookup p) 0) as [lk|] eqn:El; [|discriminate].
      destruct (column_queries _ _ (p_instance_queries p) _ _) as [q1|] eqn:Q1; [|discriminate].
      destruct (column_queries _ _ (p_advice_queries p) _ _) as [q2|] eqn:Q2; [|discriminate].
      destruct (perm_queries pe _ _) as [q3|] eqn:Q3; [|discriminate]. injection HX as <-.
      rewrite !Forall_app. split; [|split; [|split]].
      + revert Q1. apply column_queries_named with (K := KInstance); [reflexivity|].
        intro c. cbn [kind_point]. now rewrite Ei.
      + revert Q2. apply column_queries_named with (K := KAdvice); [reflexivity|].
        intro c. cbn [kind_point]. now rewrite Ea.
      + assert (Kp := HKp _ _ Ep).
        assert (Kn : forall j s, In (j, s) (enumerate (pe_sets pe)) ->
                  forall rot pt e, q_named p (query_new rot (pe_key pe ++ "_permutation_product_commitment_" ++ fmt_nat j) pt (ps_commitment s) e)).
        { intros j s Hin rot pt e. apply enumerate_In in Hin. apply query_new_named with (k := KPermProduct 0 j).
          - rewrite Kp. cbn [suffix]. now rewrite !sapp_assoc.
          - cbn [kind_point]. now rewrite Ep, Hin. }
        unfold perm_queries in Q3. destruct (mapM _ _) as [lasts|] eqn:Elast; [|discriminate].
        injection Q3 as <-. apply Forall_app. split.
        * apply Forall_flat_map, Forall_forall. intros [j s] Hin.
          apply Forall_cons; [|apply Forall_cons; [|apply Forall_nil]]; apply (Kn j s Hin).
        * apply Forall_forall. intros q Hq. apply mapM_Forall2 in Elast.
          assert (HY : exists js, In js (skipn 1 (rev (enumerate (pe_sets pe)))) /\
                       (let '(j, s) := js in do e <- ps_last_eval s;
                        Some (query_new (- Z.of_nat (pe_blinding_factors pe + 1)) (pe_key pe ++ "_permutation_product_commitment_" ++ fmt_nat j) (p_x_last p) (ps_commitment s) e)) = Some q).
          { clear -Elast Hq. induction Elast as [|i b l r' H E IH]; [destruct Hq|].
            destruct Hq as [->|Hr]; [exists i; split; [now left|exact H]|].
            destruct (IH Hr) as [j [J1 J2]]. exists j. split; [now right|exact J2]. }
          destruct HY as [[j s] [HY1 HY2]]. destruct (ps_last_eval s); [|discriminate]. injection HY2 as <-.
          apply Kn. apply in_rev. 
          assert (SK : forall (A : Type) n (l : list A) x, In x (skipn n l) -> In x l).
          { clear. intros A n l x Hx. rewrite <- (firstn_skipn n l). apply in_or_app. now right. }
          now apply SK in HY1.
      + apply Forall_flat_map, Forall_forall. intros le Hin. apply In_nth_error in Hin. destruct Hin as [j Hj].
        assert (Kl := HKl _ _ _ _ El Hj). unfold lookup_queries.
        assert (KP : kind_point p (KLookupProduct 0 j) = Some (le_product_commitment le)) by (cbn [kind_point]; now rewrite El, Hj).
        assert (KI : kind_point p (KLookupInput 0 j) = Some (le_permuted_input_commitment le)) by (cbn [kind_point]; now rewrite El, Hj).
        assert (KT : kind_point p (KLookupTable 0 j) = Some (le_permuted_table_commitment le)) by (cbn [kind_point]; now rewrite El, Hj).
        assert (N1 : le_key le ++ "_product_commitment" = p_key p ++ suffix (KLookupProduct 0 j))
          by (rewrite Kl; cbn [suffix]; now rewrite !sapp_assoc).
        assert (N2 : le_key le ++ "_permuted_input_commitment" = p_key p ++ suffix (KLookupInput 0 j))
          by (rewrite Kl; cbn [suffix]; now rewrite !sapp_assoc).
        assert (N3 : le_key le ++ "_permuted_table_commitment" = p_key p ++ suffix (KLookupTable 0 j))
          by (rewrite Kl; cbn [suffix]; now rewrite !sapp_assoc).
        refine (Forall_cons _ _ (Forall_cons _ _ (Forall_cons _ _ (Forall_cons _ _ (Forall_cons _ _ (Forall_nil _)))))).
        all: first [eapply query_new_named; [exact N1|exact KP]|eapply query_new_named; [exact N2|exact KI]|eapply query_new_named; [exact N3|exact KT]].
    - revert E2. apply column_queries_named with (K := KFixed); reflexivity.
    - unfold perm_common_queries. apply Forall_map, Forall_forall. intros [i [c e]] Hin.
      apply enumerate_In in Hin. eapply query_new_named with (k := KPermCommon i); [reflexivity|]. cbn [kind_point].
      assert (G : forall (l : list M) (r : list F) i c e, nth_error (combine l r) i = Some (c, e) -> nth_error l i = Some c).
      { clear. induction l as [|a l IH]; intros [|b r] i c e H; try (destruct i; discriminate).
        destruct i as [|i]; cbn in *; [now inversion H|]. eapply IH; exact H. }
      eapply G; exact Hin.
    - unfold vanish_queries in E3. cbn [ast_eval] in E3. destruct (chip_div _ _) as [he|]; [|discriminate].
      destruct (reduce _ _) as [h|] eqn:Er; [|discriminate]. injection E3 as <-.
      apply Forall_cons; [|apply Forall_cons; [|apply Forall_nil]].
      + unfold q_named. cbn [q_s sch_add commit_pairs]. rewrite app_nil_r. apply Forall_forall. intros x Hx.
        assert (HE : exists ic, In ic (enumerate (rev (p_vanish_commitments p))) /\
                     x = (p_key p ++ "_h_commitment" ++ fmt_nat (fst ic), snd ic)).
        { destruct (enumerate (rev (p_vanish_commitments p))) as [|ic l]; [discriminate|].
          cbn [map reduce] in Er. injection Er as <-. apply h_pairs in Hx. destruct Hx as [[Hx|[]]|[ic' [I1 I2]]].
          - exists ic. split; [now left|now symmetry].
          - exists ic'. split; [now right|exact I2]. }
        destruct HE as [[i c] [I1 ->]]. apply enumerate_In in I1. exists (KH i). split; [reflexivity|exact I1].
      + eapply query_new_named with (k := KRandom); reflexivity.
  Qed.

  Lemma instance_named (p : params F M) qs :
    keys_built p -> (length (p_instance_commitments p) <= 1)%nat -> queries p = Some qs ->
    Forall (named p) (named_commitments (p_key p) (p_w p) qs).
  Proof.
    intros HK H1 Hq. unfold named_commitments. apply Forall_app. split.
    - apply Forall_map, Forall_forall. intros [i W] Hin. apply enumerate_In in Hin.
      exists (KW i). split; [reflexivity|exact Hin].
    - apply Forall_flat_map. eapply queries_named; eassumption.
  Qed.

  (** One proof: equal names, equal points. *)
  Lemma instance_consistent (p : params F M) qs :
    keys_built p -> (length (p_instance_commitments p) <= 1)%nat -> queries p = Some qs ->
    consistent (named_commitments (p_key p) (p_w p) qs).
  Proof.
    intros HK H1 Hq k c1 c2 I1 I2. assert (N := instance_named p qs HK H1 Hq). rewrite Forall_forall in N.
    destruct (N _ I1) as [k1 [A1 A2]]. destruct (N _ I2) as [k2 [B1 B2]]. cbn [fst snd] in *.
    rewrite A1 in B1. apply sapp_inv_head, suffix_inj in B1. subst. congruence.
  Qed.

  (** Several proofs, distinct proof keys. *)
  Lemma instances_consistent (ps : list (params F M)) qss :
    Forall keys_built ps -> Forall (fun p => (length (p_instance_commitments p) <= 1)%nat) ps ->
    Forall (fun p => exists name i, p_key p = proof_key name i) ps ->
    NoDup (map p_key ps) -> mapM queries ps = Some qss ->
    consistent (flat_map (fun pq => named_commitments (p_key (fst pq)) (p_w (fst pq)) (snd pq)) (combine ps qss)).
  Proof.
    intros HK H1 HF ND HQ.
    assert (ALL : forall p qs, In (p, qs) (combine ps qss) -> In p ps /\ Forall (named p) (named_commitments (p_key p) (p_w p) qs)).
    { intros p qs Hin. assert (In p ps) by (eapply in_combine_l; exact Hin). split; [assumption|].
      rewrite Forall_forall in HK, H1. apply instance_named; auto.
      apply mapM_Forall2 in HQ. clear -Hin HQ. induction HQ as [|a b l r H _ IH]; [destruct Hin|].
      cbn in Hin. destruct Hin as [E|Hin]; [inversion E; subst; exact H|auto]. }
    intros k c1 c2 I1 I2. apply in_flat_map in I1, I2.
    destruct I1 as [[p1 q1] [J1 I1]]. destruct I2 as [[p2 q2] [J2 I2]]. cbn [fst snd] in *.
    destruct (ALL _ _ J1) as [P1 N1]. destruct (ALL _ _ J2) as [P2 N2].
    rewrite Forall_forall in N1, N2, HF.
    destruct (N1 _ I1) as [k1 [A1 A2]]. destruct (N2 _ I2) as [k2 [B1 B2]]. cbn [fst snd] in *.
    destruct (HF _ P1) as [n1 [i1 E1]]. destruct (HF _ P2) as [n2 [i2 E2]].
    rewrite A1, E1, E2 in B1. apply full_key_inj in B1. destruct B1 as [B1 <-].
    assert (p1 = p2).
    { rewrite <- E1, <- E2 in B1. clear -B1 P1 P2 ND. induction ps as [|a l IH]; [destruct P1|].
      cbn in ND. inversion ND as [|? ? NI ND']; subst. destruct P1 as [->|P1], P2 as [->|P2]; auto.
      - exfalso. apply NI. rewrite B1. now apply in_map.
      - exfalso. apply NI. rewrite <- B1. now apply in_map. }
    subst. congruence.
  Qed.
End KeyTable.
Arguments keys_built {F M} _. Arguments kind_point {F M} _ _. Arguments named {F M} _ _.
