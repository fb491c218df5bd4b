(** Proof that the sponge, over any field chip whose operations are correct,
    computes [PoseidonSpec]. *)
From Coq Require Import List Arith Lia Bool.
From Verif Require Import Util Algebra Poseidon PoseidonSpec.
Import ListNotations.

Section Sim.
  Variable F : Fld.
  Variable A : fchip F.
  Local Notation V := (cV A).
  (** worlds, what it means for a value to stand for a field element, what a
      computation guarantees *)
  Variable Wd : Type.
  Variable le : Wd -> Wd -> Prop.
  Variable R : Wd -> V -> F -> Prop.
  Variable mono : forall X, cM A X -> Prop.
  Variable wp : Wd -> forall X, cM A X -> (X -> Wd -> Prop) -> Prop.
  Arguments mono {X} _. Arguments wp _ {X} _ _.
  Hypothesis le_refl : forall c, le c c.
  Hypothesis le_trans : forall a b c, le a b -> le b c -> le a c.
  Hypothesis R_le : forall c c' v f, le c c' -> R c v f -> R c' v f.
  Hypothesis mono_ret : forall X (x : X), mono (cret A x).
  Hypothesis mono_fail : forall X, mono (@cfail _ A X).
  Hypothesis mono_bind : forall X Y (m : cM A X) (k : X -> cM A Y), mono m -> (forall x, mono (k x)) -> mono (cbind A m k).
  Hypothesis mono_const : forall k, mono (c_const A k).
  Hypothesis mono_mul : forall a b, mono (c_mul A a b).
  Hypothesis mono_mac : forall a b k, mono (c_mul_add_constant A a b k).
  Hypothesis mono_sum : forall l k, mono (c_sum A l k).
  Hypothesis wp_ret : forall c X (x : X) (P : X -> Wd -> Prop), P x c -> wp c (cret A x) P.
  Hypothesis wp_bind : forall c X Y (m : cM A X) (k : X -> cM A Y) P Q,
    wp c m P -> (forall x, mono (k x)) -> (forall x c', le c c' -> P x c' -> wp c' (k x) Q) -> wp c (cbind A m k) Q.
  Hypothesis wp_conseq : forall c X (m : cM A X) (P Q : X -> Wd -> Prop),
    wp c m P -> (forall x c', le c c' -> P x c' -> Q x c') -> wp c m Q.
  Hypothesis wp_const : forall c k, wp c (c_const A k) (fun r c' => R c' r k).
  Hypothesis wp_mul : forall c a b x y, R c a x -> R c b y -> wp c (c_mul A a b) (fun r c' => R c' r (fmul x y)).
  Hypothesis wp_mac : forall c a b k x y, R c a x -> R c b y ->
    wp c (c_mul_add_constant A a b k) (fun r c' => R c' r (fadd (fmul x y) k)).
  Hypothesis wp_sum : forall c l k xs, Forall2 (R c) (map fst l) xs ->
    wp c (c_sum A l k) (fun r c' => R c' r (fadd k (dot xs (map snd l)))).
  Add Field FF : (f_th F).

  Local Notation RL c := (Forall2 (R c)).

  Lemma RL_le c c' l xs : le c c' -> RL c l xs -> RL c' l xs.
  Proof. intros L. induction 1; constructor; eauto. Qed.
  Lemma RL_length c l xs : RL c l xs -> length l = length xs.
  Proof. induction 1; cbn; congruence. Qed.
  Lemma RL_firstn c l xs n : RL c l xs -> RL c (firstn n l) (firstn n xs).
  Proof. intro H. revert n. induction H; intros [|n]; cbn; constructor; auto. Qed.
  Lemma RL_skipn c l xs n : RL c l xs -> RL c (skipn n l) (skipn n xs).
  Proof. intro H. revert n. induction H; intros [|n]; cbn; auto. Qed.

  (** *** every computation is monotone *)
  Ltac mono_auto :=
    repeat first [ apply mono_bind; [|intro] | apply mono_ret | apply mono_fail | apply mono_const | apply mono_mul | apply mono_mac | apply mono_sum | progress (unfold c_sum_with_constant) ].
  Lemma cmap_mono {X Y} (f : X -> cM A Y) l : (forall x, mono (f x)) -> mono (cmap F A f l).
  Proof. intro H. induction l; cbn; mono_auto; auto. Qed.
  Lemma cfold_mono {X Y} (f : Y -> X -> cM A Y) l : (forall y x, mono (f y x)) -> forall y, mono (cfold F A f l y).
  Proof. intro H. induction l; intro y; cbn; mono_auto; auto. Qed.
  Lemma pow5_mono x k : mono (x_power5_with_constant F A x k).
  Proof. unfold x_power5_with_constant. mono_auto. Qed.
  Lemma sbox_full_mono s : forall cs, mono (sbox_full F A s cs).
  Proof. induction s; intros [|k cs]; cbn; mono_auto; auto using pow5_mono. Qed.
  Lemma sbox_part_mono s k : mono (sbox_part F A s k).
  Proof. destruct s; cbn; mono_auto. Qed.
  Lemma absorb_inputs_mono s : forall cs is, mono (absorb_inputs F A s cs is).
  Proof. induction s; intros [|k cs] [|i is]; cbn; mono_auto; auto. Qed.
  Lemma absorb_padding_mono s : forall i cs, mono (absorb_padding F A i s cs).
  Proof. induction s; intros i [|k cs]; cbn; mono_auto; auto. Qed.
  Lemma absorb_mono T s is cs : mono (absorb_with_pre_constants F A T s is cs).
  Proof.
    unfold absorb_with_pre_constants. destruct (_ <? _); [|mono_auto]. destruct s; [mono_auto|]. destruct cs; [mono_auto|].
    apply mono_bind; [unfold c_sum_with_constant; apply mono_sum|]. intro y. apply mono_bind; [apply absorb_inputs_mono|]. intro ys.
    apply mono_bind; [apply absorb_padding_mono|]. intro. apply mono_ret.
  Qed.
  Lemma mds_mono s m : mono (apply_mds F A s m).
  Proof. apply cmap_mono. intro. apply mono_sum. Qed.
  Lemma sparse_mono s m : mono (apply_sparse_mds F A s m).
  Proof.
    destruct s as [|s0 s]; cbn [apply_sparse_mds]; [mono_auto|]. apply mono_bind; [apply mono_sum|]. intro r0.
    apply mono_bind; [apply cmap_mono; intros []; apply mono_sum|]. intro. apply mono_ret.
  Qed.
  Variable sp : pspec F.
  Variable RATE : nat.
  Lemma permutation_mono T s is : mono (permutation F A sp T s is).
  Proof.
    unfold permutation. destruct (sp_start sp); [apply mono_fail|]. destruct (sp_r_f sp / 2)%nat; [apply mono_fail|].
    apply mono_bind; [apply absorb_mono|]. intro. apply mono_bind; [apply cfold_mono; intros; apply mono_bind; [apply sbox_full_mono|intro; apply mds_mono]|].
    intro. apply mono_bind; [apply sbox_full_mono|]. intro. apply mono_bind; [apply mds_mono|]. intro.
    apply mono_bind; [apply cfold_mono; intros y [k m]; apply mono_bind; [apply sbox_part_mono|intro; apply sparse_mono]|]. intro.
    apply mono_bind; [apply cfold_mono; intros; apply mono_bind; [apply sbox_full_mono|intro; apply mds_mono]|]. intro.
    apply mono_bind; [apply sbox_full_mono|]. intro. apply mds_mono.
  Qed.
  Lemma squeeze_mono T p : mono (squeeze F A sp T RATE p).
  Proof.
    unfold squeeze. apply mono_bind.
    - apply cfold_mono. intros [? s] ch. apply mono_bind; [apply permutation_mono|]. intro. apply mono_ret.
    - intros [po s]. apply mono_bind; [destruct (_ =? _)%nat; [apply permutation_mono|apply mono_ret]|]. intro s'.
      destruct (nth_error s' 1); [apply mono_ret|apply mono_fail].
  Qed.
  Lemma run_calls_mono T cs : forall p, mono (run_calls F A sp T RATE cs p).
  Proof.
    induction cs as [|[l|] cs IH]; intro p; cbn [run_calls]; [apply mono_ret|apply IH|].
    apply mono_bind; [apply squeeze_mono|]. intros [v p']. apply mono_bind; [apply IH|]. intros [vs p'']. apply mono_ret.
  Qed.

  (** *** every computation computes the specification *)
  Lemma pow5_wp c x k a : R c x a -> wp c (x_power5_with_constant F A x k) (fun r c' => R c' r (fadd (pow5 a) k)).
  Proof.
    intro Hx. unfold x_power5_with_constant.
    eapply wp_bind; [apply wp_mul; eassumption|intro; mono_auto|]. intros x2 c1 L1 H2. cbn beta in H2.
    eapply wp_bind; [apply wp_mul; eassumption|intro; mono_auto|]. intros x4 c2 L2 H4. cbn beta in H4.
    eapply wp_conseq; [apply wp_mac; [eapply R_le; [exact L2|eapply R_le; [exact L1|exact Hx]]|exact H4]|].
    intros r c' _ H. exact H.
  Qed.
  Lemma sbox_full_wp s : forall c cs xs, RL c s xs -> length cs = length xs ->
    wp c (sbox_full F A s cs) (fun r c' => RL c' r (vadd (map pow5 xs) cs)).
  Proof.
    induction s as [|v s IH]; intros c cs xs H L; inversion H as [|? x ? xs' Hx Hs]; subst.
    - destruct cs; [|discriminate]. cbn. apply wp_ret. constructor.
    - destruct cs as [|k cs]; [discriminate|]. injection L as L. cbn [sbox_full].
      eapply wp_bind; [apply pow5_wp; exact Hx|intro; mono_auto; apply sbox_full_mono|]. intros y c1 L1 Hy. cbn beta in Hy.
      eapply wp_bind; [apply IH; [eapply RL_le; eassumption|exact L]|intro; mono_auto|]. intros ys c2 L2 Hys. cbn beta in Hys.
      apply wp_ret. cbn. constructor; [eapply R_le; eassumption|exact Hys].
  Qed.
  Lemma one_sum c v k x : R c v x -> wp c (c_sum_with_constant F A [v] k) (fun r c' => R c' r (fadd x k)).
  Proof.
    intro H. unfold c_sum_with_constant. eapply wp_conseq; [apply wp_sum with (xs := [x]); constructor; [exact H|constructor]|].
    intros r c' _ E. cbn in E. replace (fadd x k) with (fadd k (fadd (fmul x f1) f0)) by ring. exact E.
  Qed.
  Lemma two_sum c v v' k x x' : R c v x -> R c v' x' -> wp c (c_sum_with_constant F A [v; v'] k) (fun r c' => R c' r (fadd (fadd x x') k)).
  Proof.
    intros H H'. unfold c_sum_with_constant. eapply wp_conseq; [apply wp_sum with (xs := [x; x']); constructor; [exact H|constructor; [exact H'|constructor]]|].
    intros r c' _ E. cbn in E. replace (fadd (fadd x x') k) with (fadd k (fadd (fmul x f1) (fadd (fmul x' f1) f0))) by ring. exact E.
  Qed.
  (** the words that receive an input, the others being unchanged *)
  Lemma absorb_inputs_wp s : forall c cs is xs ys, RL c s xs -> RL c is ys -> length cs = length xs -> (length ys <= length xs)%nat ->
    wp c (absorb_inputs F A s cs is)
      (fun r c' => RL c' r (vadd (vadd (firstn (length ys) xs) ys) cs ++ skipn (length ys) xs)).
  Proof.
    induction s as [|v s IH]; intros c cs is xs ys H Hi L Li; inversion H as [|? x ? xs' Hx Hs]; subst.
    - destruct ys; [|cbn in Li; lia]. inversion Hi; subst. cbn. destruct cs; apply wp_ret; constructor.
    - destruct cs as [|k cs]; [discriminate|]. injection L as L. inversion Hi as [|i y is' ys' Hy His]; subst.
      + cbn. apply wp_ret. constructor; assumption.
      + cbn [absorb_inputs]. cbn in Li. eapply wp_bind; [apply two_sum; eassumption|intro; mono_auto; apply absorb_inputs_mono|]. intros r c1 L1 Hr. cbn beta in Hr.
        eapply wp_bind; [apply IH; [eapply RL_le; eassumption|eapply RL_le; eassumption|exact L|lia]|intro; mono_auto|]. intros rs c2 L2 Hrs. cbn beta in Hrs.
        apply wp_ret. cbn. constructor; [eapply R_le; eassumption|exact Hrs].
  Qed.
  Lemma absorb_padding_wp s : forall i c cs xs, RL c s xs -> length cs = length xs ->
    wp c (absorb_padding F A i s cs)
      (fun r c' => RL c' r (vadd (vadd xs (if (i =? 0)%nat then f1 :: repeat f0 (length xs - 1) else repeat f0 (length xs))) cs)).
  Proof.
    induction s as [|v s IH]; intros i c cs xs H L; inversion H as [|? x ? xs' Hx Hs]; subst.
    - cbn. apply wp_ret. constructor.
    - destruct cs as [|k cs]; [discriminate|]. injection L as L. cbn [absorb_padding].
      eapply wp_bind; [apply one_sum; exact Hx|intro; mono_auto; apply absorb_padding_mono|]. intros r c1 L1 Hr. cbn beta in Hr.
      eapply wp_bind; [apply IH; [eapply RL_le; eassumption|exact L]|intro; mono_auto|]. intros rs c2 L2 Hrs. cbn beta in Hrs. cbn [Nat.eqb] in Hrs.
      apply wp_ret. destruct i as [|i]; cbn [Nat.eqb length repeat Nat.sub] in *.
      + rewrite Nat.sub_0_r. unfold vadd, zip in *. cbn [combine map]. constructor; [|exact Hrs].
        eapply R_le; [exact L2|]. replace (fadd (fadd x f1) k) with (fadd x (fadd k f1)) by ring. exact Hr.
      + unfold vadd, zip in *. cbn [combine map]. constructor; [|exact Hrs]. eapply R_le; [exact L2|].
        replace (fadd (fadd x f0) k) with (fadd x k) by ring. exact Hr.
  Qed.
  Lemma zip_app {X Y Z} (f : X -> Y -> Z) a b a' b' : length a = length a' -> zip f (a ++ b) (a' ++ b') = zip f a a' ++ zip f b b'.
  Proof.
    unfold zip. revert a'. induction a as [|x a IH]; intros [|x' a'] L; cbn in *; try discriminate; [reflexivity|]. f_equal. apply IH. lia.
  Qed.
  Lemma zip_length {X Y Z} (f : X -> Y -> Z) a b : length (zip f a b) = Nat.min (length a) (length b).
  Proof. unfold zip. now rewrite map_length, combine_length. Qed.
  Lemma vadd_length (a b : list F) : length a = length b -> length (vadd a b) = length a.
  Proof. intro L. unfold vadd. rewrite zip_length. lia. Qed.
  (** a block with fewer words than the rate is completed as the padding rule says *)
  Definition fill (n : nat) (l : list F) : list F :=
    if (length l <? n)%nat then l ++ f1 :: repeat f0 (n - length l - 1) else l.
  Lemma fill_length n l : (length l <= n)%nat -> length (fill n l) = n.
  Proof.
    intro L. unfold fill. destruct (Nat.ltb_spec (length l) n) as [L'|L'].
    - rewrite app_length. cbn [length]. rewrite repeat_length. lia.
    - lia.
  Qed.

  Lemma vadd_firstn (a b : list F) n : firstn n (vadd a b) = vadd (firstn n a) (firstn n b).
  Proof. unfold vadd, zip. rewrite firstn_map, combine_firstn. reflexivity. Qed.
  Lemma skipn_combine {X Y} (a : list X) : forall (b : list Y) n, skipn n (combine a b) = combine (skipn n a) (skipn n b).
  Proof.
    induction a as [|x a IH]; intros b n; [now rewrite !skipn_nil|]. destruct b as [|y b].
    - rewrite skipn_nil. cbn. rewrite skipn_nil. now destruct (skipn n (x :: a)).
    - destruct n; cbn; [reflexivity|apply IH].
  Qed.
  Lemma vadd_skipn (a b : list F) n : skipn n (vadd a b) = vadd (skipn n a) (skipn n b).
  Proof. unfold vadd, zip. rewrite skipn_map, skipn_combine. reflexivity. Qed.

  Lemma RL_cons_inv c v l x xs : RL c (v :: l) (x :: xs) -> R c v x /\ RL c l xs.
  Proof. intro H. now inversion H. Qed.
  Lemma absorb_wp c s is cs xs ys : RL c s xs -> RL c is ys -> length cs = S RATE -> length xs = S RATE -> (length ys <= RATE)%nat ->
    wp c (absorb_with_pre_constants F A (S RATE) s is cs)
      (fun r c' => RL c' r (vadd (vadd xs (f0 :: fill RATE ys)) cs)).
  Proof.
    intros H Hi Lc Lx Ly. unfold absorb_with_pre_constants. rewrite (RL_length _ _ _ Hi).
    destruct (Nat.ltb_spec (length ys) (S RATE)) as [_|]; [|lia].
    inversion H as [|v x s' xs' Hx Hs]; subst; [discriminate|]. destruct cs as [|k cs]; [discriminate|]. injection Lc as Lc. injection Lx as Lx.
    eapply wp_bind; [apply one_sum; exact Hx| |].
    { intro. apply mono_bind; [apply absorb_inputs_mono|]. intro. apply mono_bind; [apply absorb_padding_mono|]. intro; apply mono_ret. }
    intros y c1 L1 Hy. cbn beta in Hy.
    eapply wp_bind; [apply absorb_inputs_wp; [eapply RL_le; eassumption|eapply RL_le; eassumption|lia|lia]| |].
    { intro. apply mono_bind; [apply absorb_padding_mono|]. intro; apply mono_ret. }
    intros rs c2 L2 Hrs. cbn beta in Hrs. set (n := length ys) in *.
    assert (Hyr : RL c2 (y :: rs) (fadd x k :: vadd (vadd (firstn n xs') ys) cs ++ skipn n xs')) by (constructor; [eapply R_le; eassumption|exact Hrs]).
    assert (Ln : length (vadd (vadd (firstn n xs') ys) cs) = n).
    { unfold vadd. rewrite !zip_length, firstn_length. subst n. lia. }
    rewrite Nat.add_1_r.
    assert (Hsk : RL c2 (skipn (S n) (y :: rs)) (skipn n xs')).
    { apply RL_skipn with (n := S n) in Hyr. cbn [skipn] in *. rewrite skipn_app, Ln, Nat.sub_diag in Hyr. cbn [skipn] in Hyr.
      rewrite (skipn_all2 (vadd (vadd (firstn n xs') ys) cs)) in Hyr by lia. exact Hyr. }
    eapply wp_bind; [apply absorb_padding_wp; [exact Hsk|cbn [skipn]; rewrite !skipn_length; lia]|intro; apply mono_ret|].
    intros zs c3 L3 Hzs. cbn beta in Hzs. apply wp_ret.
    cbn [skipn firstn Nat.eqb] in Hzs. rewrite skipn_length in Hzs.
    change (vadd (vadd (x :: xs') (f0 :: fill RATE ys)) (k :: cs)) with (fadd (fadd x f0) k :: vadd (vadd xs' (fill RATE ys)) cs).
    replace (fadd (fadd x f0) k) with (fadd x k) by ring.
    apply RL_firstn with (n := S n) in Hyr. cbn [firstn] in Hyr |- *. apply RL_cons_inv in Hyr as [Hy' Hrs'].
    cbn [app]. constructor; [eapply R_le; eassumption|].
    rewrite firstn_app, Ln, Nat.sub_diag in Hrs'. cbn [firstn] in Hrs'. rewrite app_nil_r, (firstn_all2 (vadd (vadd (firstn n xs') ys) cs)) in Hrs' by lia.
    assert (E : vadd (vadd xs' (fill RATE ys)) cs = vadd (vadd (firstn n xs') ys) (firstn n cs) ++ vadd (vadd (skipn n xs') (skipn n (fill RATE ys))) (skipn n cs)).
    { rewrite <- (firstn_skipn n (vadd (vadd xs' (fill RATE ys)) cs)). rewrite vadd_firstn, vadd_skipn, vadd_firstn, vadd_skipn. f_equal. f_equal. f_equal.
      unfold fill, n. destruct (Nat.ltb_spec (length ys) RATE).
      - rewrite firstn_app, Nat.sub_diag. cbn [firstn]. rewrite app_nil_r. apply firstn_all.
      - apply firstn_all. }
    rewrite E. apply Forall2_app.
    - eapply RL_le; [exact L3|]. replace (vadd (vadd (firstn n xs') ys) (firstn n cs)) with (vadd (vadd (firstn n xs') ys) cs); [exact Hrs'|].
      rewrite <- (firstn_all2 (vadd (vadd (firstn n xs') ys) cs) (n := n)) by lia. rewrite vadd_firstn. f_equal. apply firstn_all2. unfold vadd. rewrite zip_length, firstn_length. lia.
    - destruct (Nat.ltb_spec n RATE) as [Lt|Ge].
      + replace (skipn n (fill RATE ys)) with (f1 :: repeat f0 (length xs' - n - 1) : list F); [exact Hzs|].
        unfold fill. destruct (Nat.ltb_spec (length ys) RATE); [|lia]. unfold n. rewrite skipn_app, skipn_all, Nat.sub_diag. cbn [skipn app]. f_equal. f_equal. lia.
      + rewrite (skipn_all2 xs') in Hzs by lia. rewrite (skipn_all2 xs') by lia. exact Hzs.
  Qed.

  Lemma combine_fst {X Y} (a : list X) (b : list Y) : length a = length b -> map fst (combine a b) = a.
  Proof. revert b. induction a as [|x a IH]; intros [|y b] L; cbn in *; try discriminate; [reflexivity|]. f_equal. apply IH. lia. Qed.
  Lemma combine_snd {X Y} (a : list X) (b : list Y) : length a = length b -> map snd (combine a b) = b.
  Proof. revert b. induction a as [|x a IH]; intros [|y b] L; cbn in *; try discriminate; [reflexivity|]. f_equal. apply IH. lia. Qed.
  Lemma row_wp c s xs row : RL c s xs -> length row = length xs -> wp c (c_sum A (combine s row) f0) (fun r c' => R c' r (dot xs row)).
  Proof.
    intros H L. assert (Ls := RL_length _ _ _ H). eapply wp_conseq; [apply wp_sum with (xs := xs); rewrite combine_fst by congruence; exact H|].
    intros r c' _ E. cbn beta in E. rewrite combine_snd in E by congruence.
    replace (dot xs row) with (fadd f0 (dot xs row)) by ring. exact E.
  Qed.
  Lemma mds_wp m : forall c s xs, RL c s xs -> Forall (fun r => length r = length xs) m ->
    wp c (apply_mds F A s m) (fun r c' => RL c' r (mat m xs)).
  Proof.
    unfold apply_mds. induction m as [|row m IH]; intros c s xs H L; cbn [cmap].
    - apply wp_ret. constructor.
    - inversion L as [|? ? Lr Lm]; subst. eapply wp_bind; [apply row_wp; eassumption|intro; mono_auto; apply cmap_mono; intro; apply mono_sum|].
      intros y c1 L1 Hy. cbn beta in Hy. eapply wp_bind; [apply IH; [eapply RL_le; eassumption|exact Lm]|intro; mono_auto|].
      intros ys c2 L2 Hys. cbn beta in Hys. apply wp_ret. cbn. constructor; [eapply R_le; eassumption|exact Hys].
  Qed.
  Lemma col_wp col : forall c s0 y s xs, R c s0 y -> RL c s xs -> length col = length xs ->
    wp c (cmap F A (fun '(e, x) => c_sum A [(s0, e); (x, f1)] f0) (combine col s))
      (fun r c' => RL c' r (zip (fun e x => fadd (fmul y e) x) col xs)).
  Proof.
    induction col as [|e col IH]; intros c s0 y s xs H0 H L.
    - cbn. apply wp_ret. constructor.
    - inversion H as [|v x s' xs' Hx Hs]; subst; [discriminate|]. injection L as L. cbn [combine cmap].
      eapply wp_bind; [apply wp_sum with (xs := [y; x]); constructor; [exact H0|constructor; [exact Hx|constructor]]|intro; mono_auto; apply cmap_mono; intros []; apply mono_sum|].
      intros r c1 L1 Hr. cbn beta in Hr. eapply wp_bind; [apply IH; [eapply R_le; eassumption|eapply RL_le; eassumption|exact L]|intro; mono_auto|].
      intros rs c2 L2 Hrs. cbn beta in Hrs. apply wp_ret. cbn. constructor; [|exact Hrs]. eapply R_le; [exact L2|].
      cbn in Hr. replace (fadd (fmul y e) x) with (fadd f0 (fadd (fmul y e) (fadd (fmul x f1) f0))) by ring. exact Hr.
  Qed.
  Lemma part_wp c s xs k m : RL c s xs -> length xs = S RATE -> length (fst m) = S RATE -> length (snd m) = RATE ->
    wp c (cbind A (sbox_part F A s k) (fun s => apply_sparse_mds F A s m)) (fun r c' => RL c' r (partial_round k m xs)).
  Proof.
    intros H L Lf Ls. inversion H as [|v x s' xs' Hx Hs]; subst; [discriminate|]. injection L as L. cbn [sbox_part].
    eapply wp_bind with (P := fun r c' => RL c' r (fadd (pow5 x) k :: xs')); [|intro; apply sparse_mono|].
    - eapply wp_bind; [apply pow5_wp; exact Hx|intro; mono_auto|]. intros y c1 L1 Hy. apply wp_ret. constructor; [exact Hy|eapply RL_le; eassumption].
    - intros r c1 L1 Hr. cbn beta in Hr. destruct r as [|r0 rest]; [inversion Hr|]. destruct (RL_cons_inv _ _ _ _ _ Hr) as [Hr0 Hrest]. cbn [apply_sparse_mds].
      eapply wp_bind; [apply row_wp; [exact Hr|cbn [length]; congruence]| |].
      { intro. apply mono_bind; [apply cmap_mono; intros []; apply mono_sum|intro; apply mono_ret]. }
      intros z c2 L2 Hz. cbn beta in Hz. eapply wp_bind; [apply col_wp; [eapply R_le; eassumption|eapply RL_le; eassumption|congruence]|intro; apply mono_ret|].
      intros zs c3 L3 Hzs. cbn beta in Hzs. apply wp_ret.
      assert (Lz : length zs = length rest). { rewrite (RL_length _ _ _ Hzs), zip_length, (RL_length _ _ _ Hrest). lia. }
      rewrite skipn_all2 by (cbn [length]; lia). rewrite app_nil_r. cbn [partial_round]. constructor; [eapply R_le; eassumption|exact Hzs].
  Qed.
  Lemma full_wp c s xs k m : RL c s xs -> length k = length xs -> Forall (fun r => length r = length xs) m ->
    wp c (cbind A (sbox_full F A s k) (fun s => apply_mds F A s m)) (fun r c' => RL c' r (full_round m k xs)).
  Proof.
    intros H Lk Lm. eapply wp_bind; [apply sbox_full_wp; eassumption|intro; apply mds_mono|]. intros r c1 L1 Hr. cbn beta in Hr.
    apply mds_wp; [exact Hr|]. rewrite vadd_length; rewrite map_length; auto.
  Qed.
  (** a loop whose body is correct for states of the right length *)
  Lemma cfold_wp {X} (f : list V -> X -> cM A (list V)) (g : list F -> X -> list F) (ok : X -> Prop) n l :
    (forall s x, mono (f s x)) ->
    (forall c s xs x, RL c s xs -> length xs = n -> ok x -> wp c (f s x) (fun r c' => RL c' r (g xs x))) ->
    (forall xs x, length xs = n -> ok x -> length (g xs x) = n) ->
    Forall ok l -> forall c s xs, RL c s xs -> length xs = n ->
    wp c (cfold F A f l s) (fun r c' => RL c' r (fold_left g l xs) /\ length (fold_left g l xs) = n).
  Proof.
    intros Hm Hf Hg. induction 1 as [|x l Ox _ IH]; intros c s xs H L; cbn [cfold fold_left].
    - apply wp_ret. auto.
    - eapply wp_bind; [apply Hf; eassumption|intro; apply cfold_mono; exact Hm|]. intros r c1 L1 Hr. cbn beta in Hr. apply IH; auto.
  Qed.
  Hypothesis wf : wf_spec sp RATE.
  Lemma mat_length m (s : list F) : length (mat m s) = length m. Proof. apply map_length. Qed.

  Lemma permutation_wp c s is xs ys : RL c s xs -> RL c is ys -> length xs = S RATE -> (length ys <= RATE)%nat ->
    wp c (permutation F A sp (S RATE) s is)
      (fun r c' => RL c' r (absorb_block sp RATE xs (fill RATE ys)) /\ length (absorb_block sp RATE xs (fill RATE ys)) = S RATE).
  Proof.
    intros H Hi Lx Ly. destruct wf as (W1 & W2 & W3 & W4 & W5 & W6 & W7 & W8 & W9 & W10). unfold permutation, absorb_block, perm.
    set (T := S RATE) in *.
    destruct (sp_start sp) as [|c0 cs] eqn:Es; [congruence|]. destruct (sp_r_f sp / 2)%nat as [|r1] eqn:Er; [lia|].
    cbn [hd tl Nat.sub]. rewrite Nat.sub_0_r. inversion W4 as [|? ? Lc0 Lcs]; subst.
    assert (Llast : length (last (c0 :: cs) []) = T).
    { rewrite Forall_forall in W4. apply W4. destruct (exists_last (l := c0 :: cs)) as (l' & a & E); [discriminate|]. rewrite E, last_last. apply in_or_app. right. now left. }
    assert (M7 : forall xs : list F, length xs = T -> Forall (fun r => length r = length xs) (sp_mds sp)) by (intros ? ->; exact W7).
    assert (M9 : forall xs : list F, length xs = T -> Forall (fun r => length r = length xs) (sp_pre_sparse_mds sp)) by (intros ? ->; exact W9).
    eapply wp_bind; [apply absorb_wp; eassumption| |].
    { intro. apply mono_bind; [apply cfold_mono; intros; apply mono_bind; [apply sbox_full_mono|intro; apply mds_mono]|].
      intro. apply mono_bind; [apply sbox_full_mono|]. intro. apply mono_bind; [apply mds_mono|]. intro.
      apply mono_bind; [apply cfold_mono; intros y [k m]; apply mono_bind; [apply sbox_part_mono|intro; apply sparse_mono]|]. intro.
      apply mono_bind; [apply cfold_mono; intros; apply mono_bind; [apply sbox_full_mono|intro; apply mds_mono]|]. intro.
      apply mono_bind; [apply sbox_full_mono|]. intro. apply mds_mono. }
    intros s1 c1 L1 H1. cbn beta in H1.
    assert (Lx1 : length (vadd (vadd xs (f0 :: fill RATE ys)) c0) = T).
    { unfold vadd. rewrite !zip_length. cbn [length]. rewrite fill_length by exact Ly. subst T. lia. }
    set (x1 := vadd (vadd xs (f0 :: fill RATE ys)) c0) in *.
    eapply wp_bind; [apply (cfold_wp _ (fun s c => full_round (sp_mds sp) c s) (fun c => length c = T) T)| |].
    { intros. apply mono_bind; [apply sbox_full_mono|intro; apply mds_mono]. }
    { intros. apply full_wp; [assumption|congruence|auto]. }
    { intros. unfold full_round. rewrite mat_length. exact W6. }
    { apply Forall_forall. intros k Hk. rewrite Forall_forall in Lcs. apply Lcs. rewrite <- (firstn_skipn r1 cs). apply in_or_app. now left. }
    { exact H1. } { exact Lx1. }
    { intro. apply mono_bind; [apply sbox_full_mono|]. intro. apply mono_bind; [apply mds_mono|]. intro.
      apply mono_bind; [apply cfold_mono; intros y [k m]; apply mono_bind; [apply sbox_part_mono|intro; apply sparse_mono]|]. intro.
      apply mono_bind; [apply cfold_mono; intros; apply mono_bind; [apply sbox_full_mono|intro; apply mds_mono]|]. intro.
      apply mono_bind; [apply sbox_full_mono|]. intro. apply mds_mono. }
    intros s2 c2 L2 [H2 Lx2]. set (x2 := fold_left _ _ x1) in *.
    eapply wp_bind; [apply sbox_full_wp; [exact H2|congruence]| |].
    { intro. apply mono_bind; [apply mds_mono|]. intro.
      apply mono_bind; [apply cfold_mono; intros y [k m]; apply mono_bind; [apply sbox_part_mono|intro; apply sparse_mono]|]. intro.
      apply mono_bind; [apply cfold_mono; intros; apply mono_bind; [apply sbox_full_mono|intro; apply mds_mono]|]. intro.
      apply mono_bind; [apply sbox_full_mono|]. intro. apply mds_mono. }
    intros s3 c3 L3 H3. cbn beta in H3.
    eapply wp_bind; [apply mds_wp; [exact H3|apply M9; rewrite vadd_length; rewrite map_length; congruence]| |].
    { intro.
      apply mono_bind; [apply cfold_mono; intros y [k m]; apply mono_bind; [apply sbox_part_mono|intro; apply sparse_mono]|]. intro.
      apply mono_bind; [apply cfold_mono; intros; apply mono_bind; [apply sbox_full_mono|intro; apply mds_mono]|]. intro.
      apply mono_bind; [apply sbox_full_mono|]. intro. apply mds_mono. }
    intros s4 c4 L4 H4. cbn beta in H4.
    fold (full_round (sp_pre_sparse_mds sp) (last (c0 :: cs) []) x2) in H4.
    set (x4 := full_round (sp_pre_sparse_mds sp) (last (c0 :: cs) []) x2) in *.
    assert (Lx4 : length x4 = T) by (unfold x4, full_round; rewrite mat_length; exact W8).
    eapply wp_bind; [apply (cfold_wp _ (fun s '(c, m) => partial_round c m s) (fun km => length (fst (snd km)) = T /\ length (snd (snd km)) = RATE) T)| |].
    { intros ? [? ?]. apply mono_bind; [apply sbox_part_mono|intro; apply sparse_mono]. }
    { intros ? ? ? [k m] ? ? [? ?]. apply part_wp; assumption. }
    { intros [|y ys'] [k m] Ly' [Lf Ls]; [discriminate|]. cbn [partial_round length]. rewrite zip_length. cbn [fst snd] in *. cbn [length] in Ly'. subst T. lia. }
    { apply Forall_forall. intros [k m] Hk. apply in_combine_r in Hk. rewrite Forall_forall in W10. cbn [fst snd]. now apply W10. }
    { exact H4. } { exact Lx4. }
    { intro.
      apply mono_bind; [apply cfold_mono; intros; apply mono_bind; [apply sbox_full_mono|intro; apply mds_mono]|]. intro.
      apply mono_bind; [apply sbox_full_mono|]. intro. apply mds_mono. }
    intros s5 c5 L5 [H5 Lx5]. set (x5 := fold_left _ _ x4) in *.
    eapply wp_bind; [apply (cfold_wp _ (fun s c => full_round (sp_mds sp) c s) (fun c => length c = T) T)| |].
    { intros. apply mono_bind; [apply sbox_full_mono|intro; apply mds_mono]. }
    { intros. apply full_wp; [assumption|congruence|auto]. }
    { intros. unfold full_round. rewrite mat_length. exact W6. }
    { exact W5. }
    { exact H5. } { exact Lx5. }
    { intro. apply mono_bind; [apply sbox_full_mono|]. intro. apply mds_mono. }
    intros s6 c6 L6 [H6 Lx6]. set (x6 := fold_left _ _ x5) in *.
    eapply wp_conseq; [apply full_wp with (xs := x6); [exact H6|rewrite repeat_length; congruence|auto]|].
    intros r c' _ Hr. cbn beta in Hr. split; [exact Hr|]. unfold full_round. rewrite mat_length. exact W6.
  Qed.

  (** *** blocks *)
  Lemma RL_chunks c l xs : RL c l xs -> Forall2 (RL c) (chunks RATE l) (chunks RATE xs).
  Proof.
    intro H. unfold chunks. rewrite (RL_length _ _ _ H). generalize (length xs). intro n. revert l xs H.
    induction n as [|n IH]; intros l xs H; cbn [chunks_aux]; [constructor|].
    inversion H; subst; [constructor|]. constructor; [apply RL_firstn; assumption|]. apply IH. apply RL_skipn. assumption.
  Qed.
  Lemma chunks_aux_fuel {X} k : (1 <= k)%nat -> forall n m (l : list X), (length l <= n)%nat -> (length l <= m)%nat -> chunks_aux n k l = chunks_aux m k l.
  Proof.
    intro K. induction n as [|n IH]; intros m l Ln Lm.
    - destruct l; [|cbn in Ln; lia]. destruct m; reflexivity.
    - destruct m as [|m]; [destruct l; [reflexivity|cbn in Lm; lia]|]. cbn [chunks_aux]. destruct l as [|x l]; [reflexivity|]. f_equal.
      apply IH; rewrite skipn_length; cbn [length] in *; lia.
  Qed.
  Lemma chunks_nil {X} k : chunks k ([] : list X) = []. Proof. reflexivity. Qed.
  Lemma chunks_app {X} k (a x : list X) : (1 <= k)%nat -> length a = k -> chunks k (a ++ x) = a :: chunks k x.
  Proof.
    intros K L. unfold chunks. rewrite app_length. destruct a as [|y a]; [cbn in L; lia|]. cbn [length plus chunks_aux app].
    change (y :: a ++ x) with ((y :: a) ++ x). rewrite firstn_app, skipn_app, L, Nat.sub_diag. cbn [firstn skipn].
    rewrite app_nil_r, <- L, firstn_all, skipn_all. cbn [app]. f_equal. cbn [length]. apply chunks_aux_fuel; cbn [length] in *; lia.
  Qed.
  Lemma chunks_small {X} k (l : list X) : l <> [] -> (length l <= k)%nat -> chunks k l = [l].
  Proof.
    intros N L. unfold chunks. destruct l as [|x l]; [congruence|]. cbn [length chunks_aux]. rewrite firstn_all2, skipn_all2 by exact L.
    now destruct (length l).
  Qed.
  Definition po_of (cls : list (list F)) : nat := fold_left (fun _ b => RATE - length b)%nat cls 0%nat.
  Lemma pad_app (a l : list F) : length a = RATE -> (1 <= RATE)%nat -> pad RATE (a ++ l) = a ++ pad RATE l.
  Proof.
    intros L K. unfold pad. rewrite <- app_assoc. do 4 f_equal. rewrite app_length, L. f_equal.
    replace (RATE + length l)%nat with (length l + 1 * RATE)%nat by lia. apply Nat.mod_add. lia.
  Qed.
  Lemma blocks_eq n : (1 <= RATE)%nat -> forall l : list F, (length l <= n)%nat ->
    map (fill RATE) (chunks RATE l) ++ (if (po_of (chunks RATE l) =? 0)%nat then [fill RATE []] else []) = blocks RATE l.
  Proof.
    intro K. induction n as [|n IH]; intros l L.
    - destruct l; [|cbn in L; lia]. rewrite chunks_nil. unfold po_of. cbn [map fold_left Nat.eqb app]. unfold blocks, pad. cbn [app length].
      rewrite Nat.mod_0_l by lia. rewrite Nat.sub_0_r. rewrite chunks_small; [|discriminate|cbn [length]; rewrite repeat_length; lia].
      unfold fill. cbn [length]. destruct (Nat.ltb_spec 0 RATE); [|lia]. cbn [app]. now rewrite Nat.sub_0_r.
    - destruct (Nat.ltb_spec (length l) RATE) as [Lt|Ge].
      + destruct l as [|x l]; [apply IH; cbn; lia|]. rewrite chunks_small by (discriminate || lia). unfold po_of. cbn [map fold_left].
        destruct (Nat.eqb_spec (RATE - length (x :: l)) 0) as [E|_]; [lia|]. rewrite app_nil_r. unfold blocks, pad. rewrite Nat.mod_small by exact Lt.
        rewrite chunks_small; [|discriminate|rewrite app_length; cbn [length]; rewrite repeat_length; cbn [length] in Lt; lia].
        unfold fill. destruct (Nat.ltb_spec (length (x :: l)) RATE); [|lia]. do 4 f_equal. lia.
      + rewrite <- (firstn_skipn RATE l). set (a := firstn RATE l). set (l' := skipn RATE l).
        assert (La : length a = RATE) by (apply firstn_length_le; lia). rewrite chunks_app by assumption. unfold po_of. cbn [map fold_left].
        rewrite La, Nat.sub_diag. fold (po_of (chunks RATE l')). unfold blocks. rewrite pad_app, chunks_app by assumption. cbn [app]. f_equal.
        * unfold fill. destruct (Nat.ltb_spec (length a) RATE); [lia|reflexivity].
        * apply IH. unfold l'. rewrite skipn_length. lia.
  Qed.
  Lemma chunks_bound {X} (l : list X) : Forall (fun b => length b <= RATE)%nat (chunks RATE l).
  Proof.
    unfold chunks. generalize (length l). intro n. revert l. induction n as [|n IH]; intro l; cbn [chunks_aux]; [constructor|].
    destruct l; [constructor|]. constructor; [apply firstn_le_length|apply IH].
  Qed.

  Lemma fold_map {X Y Z} (f : Z -> Y -> Z) (g : X -> Y) l z : fold_left f (map g l) z = fold_left (fun z x => f z (g x)) l z.
  Proof. revert z. induction l; intro z; cbn; auto. Qed.
  Lemma squeeze_wp c p xs ys : RL c (ps_s p) xs -> RL c (ps_absorbing p) ys -> length xs = S RATE ->
    wp c (squeeze F A sp (S RATE) RATE p)
      (fun r c' => R c' (fst r) (challenge (sponge sp RATE xs ys)) /\ RL c' (ps_s (snd r)) (sponge sp RATE xs ys) /\
                   ps_absorbing (snd r) = [] /\ length (sponge sp RATE xs ys) = S RATE).
  Proof.
    intros H Hi Lx. unfold squeeze.
    assert (K : (1 <= RATE)%nat) by apply wf.
    assert (Hfold : forall chs cls c po s xs, Forall2 (RL c) chs cls -> Forall (fun b => length b <= RATE)%nat cls -> RL c s xs -> length xs = S RATE ->
      wp c (cfold F A (fun '(_, s) chunk => cbind A (permutation F A sp (S RATE) s chunk) (fun s => cret A ((RATE - length chunk)%nat, s))) chs (po, s))
        (fun r c' => fst r = fold_left (fun _ b => RATE - length b)%nat cls po /\
                     RL c' (snd r) (fold_left (absorb_block sp RATE) (map (fill RATE) cls) xs) /\
                     length (fold_left (absorb_block sp RATE) (map (fill RATE) cls) xs) = S RATE)).
    { induction chs as [|ch chs IH]; intros cls c0 po s xs0 Hc Hb Hs L; inversion Hc as [|? cl ? cls' Hch Hchs]; subst; cbn [cfold map fold_left].
      - apply wp_ret. cbn [fst snd]. auto.
      - inversion Hb as [|? ? Lcl Hb']; subst.
        eapply wp_bind with (P := fun r c' => fst r = (RATE - length cl)%nat /\ RL c' (snd r) (absorb_block sp RATE xs0 (fill RATE cl)) /\ length (absorb_block sp RATE xs0 (fill RATE cl)) = S RATE).
        + eapply wp_bind; [apply permutation_wp; eassumption|intro; apply mono_ret|]. intros s1 c1 L1 [H1 Lx1]. apply wp_ret. cbn [fst snd].
          rewrite (RL_length _ _ _ Hch). auto.
        + intros [po1 s1]. apply cfold_mono. intros [? ?] ?. apply mono_bind; [apply permutation_mono|intro; apply mono_ret].
        + intros [po1 s1] c1 L1 (E & H1 & Lx1). cbn [fst snd] in *. subst po1. apply IH; [|exact Hb'|exact H1|exact Lx1].
          clear - Hchs L1 R_le. induction Hchs; constructor; auto. eapply RL_le; eassumption. }
    eapply wp_bind; [apply Hfold; [apply RL_chunks; exact Hi|apply chunks_bound|exact H|exact Lx]| |].
    { intros [po s]. apply mono_bind; [destruct (_ =? _)%nat; [apply permutation_mono|apply mono_ret]|]. intro s'.
      destruct (nth_error s' 1); [apply mono_ret|apply mono_fail]. }
    intros [po s] c1 L1 (E & H1 & L1x). cbn [fst snd] in E, H1, L1x. fold (po_of (chunks RATE ys)) in E. subst po.
    assert (Heq : sponge sp RATE xs ys =
      fold_left (absorb_block sp RATE) (if (po_of (chunks RATE ys) =? 0)%nat then [fill RATE []] else [])
        (fold_left (absorb_block sp RATE) (map (fill RATE) (chunks RATE ys)) xs)).
    { unfold sponge. rewrite <- (blocks_eq (length ys) K ys (Nat.le_refl _)). now rewrite fold_left_app. }
    eapply wp_bind with (P := fun r c' => RL c' r (sponge sp RATE xs ys) /\ length (sponge sp RATE xs ys) = S RATE).
    - rewrite Heq. destruct (po_of (chunks RATE ys) =? 0)%nat; cbn [fold_left].
      + apply permutation_wp; [exact H1|constructor|exact L1x|cbn; lia].
      + apply wp_ret. auto.
    - intro s'. destruct (nth_error s' 1); [apply mono_ret|apply mono_fail].
    - intros s' c2 L2 [H2 L2x]. destruct s' as [|v0 [|v1 s']].
      + apply RL_length in H2. cbn in H2. lia.
      + apply RL_length in H2. cbn in H2. lia.
      + cbn [nth_error]. apply wp_ret. cbn [fst snd ps_s ps_absorbing]. split; [|split; [exact H2|auto]].
        unfold challenge. inversion H2 as [|? ? ? ? _ H3]; subst. inversion H3; subst. assumption.
  Qed.

  Inductive calls_of (c : Wd) : list (pcall F A) -> list (hcall F) -> Prop :=
  | calls_nil : calls_of c [] []
  | calls_update l ys cs hs : RL c l ys -> calls_of c cs hs -> calls_of c (Update l :: cs) (HUpdate ys :: hs)
  | calls_squeeze cs hs : calls_of c cs hs -> calls_of c (Squeeze :: cs) (HSqueeze :: hs).
  Lemma calls_le c c' cs hs : le c c' -> calls_of c cs hs -> calls_of c' cs hs.
  Proof. intro L. induction 1; constructor; auto. eapply RL_le; eassumption. Qed.
  Lemma run_calls_wp cs : forall hs c p xs ys, calls_of c cs hs -> RL c (ps_s p) xs -> RL c (ps_absorbing p) ys -> length xs = S RATE ->
    wp c (run_calls F A sp (S RATE) RATE cs p)
      (fun r c' => RL c' (fst r) (fst (history sp RATE hs xs ys)) /\
                   RL c' (ps_s (snd r)) (fst (snd (history sp RATE hs xs ys))) /\
                   RL c' (ps_absorbing (snd r)) (snd (snd (history sp RATE hs xs ys)))).
  Proof.
    induction cs as [|[l|] cs IH]; intros hs c p xs ys Hc H Hi L; inversion Hc; subst; cbn [run_calls history].
    - apply wp_ret. cbn [fst snd]. auto using Forall2_nil.
    - apply IH; [assumption|exact H| |exact L]. cbn [update ps_absorbing]. apply Forall2_app; assumption.
    - eapply wp_bind; [apply squeeze_wp; eassumption| |].
      { intros [v p']. apply mono_bind; [apply run_calls_mono|]. intros [vs p'']. apply mono_ret. }
      intros [v p'] c1 L1 (Hv & Hs & Ha & Ls). cbn [fst snd] in *. set (xs' := sponge sp RATE xs ys) in *.
      eapply wp_bind; [apply (IH hs0 c1 p' xs' []); [eapply calls_le; eassumption|exact Hs|rewrite Ha; constructor|exact Ls]| |].
      { intros [vs p'']. apply mono_ret. }
      intros [vs p''] c2 L2 (Hvs & Hs2 & Ha2). cbn [fst snd] in *. apply wp_ret. destruct (history sp RATE hs0 xs' []) as [vs' r']. cbn [fst snd] in *.
      split; [constructor; [eapply R_le; eassumption|exact Hvs]|auto].
  Qed.
  Lemma new_wp c init : wp c (poseidon_new F A init) (fun p c' => RL c' (ps_s p) init /\ ps_absorbing p = []).
  Proof.
    unfold poseidon_new. eapply wp_bind with (P := fun s c' => RL c' s init); [|intro; apply mono_ret|].
    - revert c. induction init as [|k init IH]; intro c; cbn [cmap]; [apply wp_ret; constructor|].
      eapply wp_bind; [apply wp_const|intro; mono_auto; apply cmap_mono; intro; apply mono_const|]. intros v c1 L1 Hv. cbn beta in Hv.
      eapply wp_bind; [apply IH|intro; apply mono_ret|]. intros vs c2 L2 Hvs. cbn beta in Hvs. apply wp_ret. constructor; [eapply R_le; eassumption|exact Hvs].
    - intros s c1 L1 Hs. cbn beta in Hs. apply wp_ret. auto.
  Qed.
  Lemma poseidon_wp c init cs hs : length init = S RATE -> calls_of c cs hs ->
    wp c (cbind A (poseidon_new F A init) (fun p => run_calls F A sp (S RATE) RATE cs p))
      (fun r c' => RL c' (fst r) (fst (history sp RATE hs init []))).
  Proof.
    intros L Hc. eapply wp_bind; [apply new_wp|intro; apply run_calls_mono|]. intros p c1 L1 [Hp Ha].
    eapply wp_conseq; [apply run_calls_wp with (ys := []); [eapply calls_le; eassumption|exact Hp|rewrite Ha; constructor|exact L]|].
    intros r c' _ (H & _). exact H.
  Qed.
End Sim.
