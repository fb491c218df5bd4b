(** The emitted program computes what the verifier computes natively. *)
From Coq Require Import ZArith NArith List Bool Lia.
From Verif Require Import Util Algebra PField Curve Bytes Evm EvmProofs SolIr SolScan SolSem SolMulAdd SolIntervals ListFacts SolAggDriver Poseidon PoseidonProofs ChipRun SolChip.
From Verif Require ShaTranscript.
Import ListNotations.

(** * What every computation of the generator respects *)
Definition grows (g g' : gctx) : Prop := (g_mem g <= g_mem g')%N /\ (absorbing_length g <= absorbing_length g')%N.
Lemma grows_refl g : grows g g. Proof. split; lia. Qed.
Lemma grows_trans a c d : grows a c -> grows c d -> grows a d. Proof. intros [? ?] [? ?]. split; lia. Qed.
Definition gmono {A} (m : G A) : Prop := forall g x g', m g = Some (x, g') -> grows g g'.
Lemma gmono_ret A (a : A) : gmono (gret a). Proof. intros g x g' [= <- <-]. apply grows_refl. Qed.
Lemma gmono_panic A : gmono (@gpanic A). Proof. intros g x g'. discriminate. Qed.
Lemma gmono_bind A B (m : G A) (k : A -> G B) : gmono m -> (forall a, gmono (k a)) -> gmono (gbind m k).
Proof.
  intros H K g x g' E. unfold gbind in E. destruct (m g) as [[a g1]|] eqn:E1; [|discriminate]. eapply grows_trans; [eapply H|eapply K]; eauto.
Qed.
Ltac unit_mono := intros g x g' [= <- <-]; split; unfold absorbing_length; cbn; try lia.
Lemma gmono_enter : gmono enter_hash. Proof. unit_mono. Qed.
Lemma gmono_str v : gmono (set_transcript v). Proof. unit_mono. Qed.
Lemma gmono_sin v : gmono (set_instance v). Proof. unit_mono. Qed.
Lemma gmono_push s : gmono (push s). Proof. unit_mono. Qed.
Lemma gmono_alloc t : gmono (allocate t). Proof. unit_mono. Qed.
Lemma gmono_ins v e : gmono (cache_insert v e). Proof. unit_mono. Qed.
Lemma gmono_ntr t d : gmono (new_transcript_var t d). Proof. unit_mono. Qed.
Lemma gmono_nin t d : gmono (new_instance_var t d). Proof. unit_mono. Qed.
Lemma gmono_ntm t d : gmono (new_tmp_var t d). Proof. unit_mono. Qed.
Lemma gmono_assign v : gmono (assign_memory v).
Proof.
  intros g x g'. unfold assign_memory. destruct (cache_get v (g_cache g)); [apply gmono_ret|]. 
  apply gmono_bind; [apply gmono_alloc|]. intro m. destruct (g_mock g); [apply gmono_ret|].
  apply gmono_bind; [apply gmono_ins|]. intro. apply gmono_bind; [apply gmono_push|]. intro. apply gmono_ret.
Qed.
Ltac gm :=
  repeat first
    [ apply gmono_bind; [|intro] | apply gmono_ret | apply gmono_panic | apply gmono_assign | apply gmono_enter | apply gmono_str | apply gmono_sin
    | apply gmono_push | apply gmono_alloc | apply gmono_ins | apply gmono_ntr | apply gmono_nin | apply gmono_ntm
    | match goal with |- gmono (if ?c then _ else _) => destruct c | |- gmono (match ?c with _ => _ end) => destruct c end ].

Section Mono.
  Variables S W : PF.
  Variable b : W.
  Variable ident_ok : bool.
  Variable H : list Z -> list Z.
  Variable sp : pspec S.
  Variables T RATE : nat.
  Lemma mono_add x y : gmono (s_add S x y). Proof. unfold s_add, emit, assign_const. gm. Qed.
  Lemma mono_sub x y : gmono (s_sub S x y). Proof. unfold s_sub, emit, assign_const. gm. Qed.
  Lemma mono_mul x y : gmono (s_mul S x y). Proof. unfold s_mul, emit, assign_const. gm. Qed.
  Lemma mono_div x y : gmono (s_div S x y). Proof. unfold s_div, emit, assign_const. gm. Qed.
  Lemma mono_square x : gmono (s_square S x). Proof. unfold s_square, emit, assign_const. gm. Qed.
  Lemma mono_sum_loop l : forall acc, gmono (s_sum_loop S l acc).
  Proof. induction l as [|[x c] l IH]; intro acc; cbn [s_sum_loop]; [gm|]. unfold assign_const. gm; [apply mono_mul|apply mono_add|apply IH]. Qed.
  Lemma mono_sum l c : gmono (s_sum S l c). Proof. unfold s_sum, assign_const. gm. apply mono_sum_loop. Qed.
  Lemma mono_pconst P : gmono (p_assign_const W P). Proof. unfold p_assign_const. gm. Qed.
  Lemma mono_pemit r v c : gmono (p_emit W ident_ok r v c). Proof. unfold p_emit. gm. Qed.
  Lemma mono_padd P Q : gmono (p_add W ident_ok P Q). Proof. unfold p_add. gm; [apply mono_pconst|apply mono_pemit]. Qed.
  Lemma mono_psub P Q : gmono (p_sub W ident_ok P Q). Proof. unfold p_sub. gm; [apply mono_pconst|apply mono_pemit]. Qed.
  Lemma mono_pmul x P : gmono (p_mul S W ident_ok x P). Proof. unfold p_mul. gm; [apply mono_pconst|apply mono_pemit]. Qed.
  Lemma mono_pmulc x P : gmono (p_mul_constant S W ident_ok x P). Proof. unfold p_mul_constant. gm; [apply mono_pconst|apply mono_pemit]. Qed.
  Lemma mono_svar v : gmono (s_assign_var S v). Proof. intros g. unfold s_assign_var. revert g. intro g. apply gmono_bind; [gm|intro; gm]. Qed.
  Lemma mono_pvar v : gmono (p_assign_var W v). Proof. intros g. unfold p_assign_var. apply gmono_bind; [gm|intro; gm]. Qed.
  Lemma mono_encode P : gmono (encode_point S W ident_ok P).
  Proof. unfold encode_point. destruct (match _ with Some _ => _ | None => _ end).
    apply gmono_bind; [apply mono_svar|]. intro. apply gmono_bind; [apply mono_svar|]. intro. gm. Qed.
  Lemma mono_push_abs e k : (0 <= k)%N -> gmono (fun g => (_ <-g push (UpdateHash e (g_abs g)) ;; set_abs_offset (g_abs g + k) (g_maxabs g)) g).
  Proof.
    intros _ g x g' [= <- <-]. split; [cbn; lia|]. unfold absorbing_length. cbn.
    destruct (N.ltb_spec (g_maxabs g) (g_abs g)), (N.ltb_spec (g_maxabs g) (g_abs g + k)); lia.
  Qed.
  Lemma mono_cp t P : gmono (_common_point S W ident_ok t P).
  Proof. unfold _common_point. apply gmono_bind; [apply mono_encode|]. intro. apply gmono_bind; [apply mono_push_abs; lia|]. intro. gm. Qed.
  Lemma mono_cs t x : gmono (_common_scalar S t x).
  Proof. unfold _common_scalar. apply gmono_bind; [apply mono_push_abs; lia|]. intro. gm. Qed.
  Lemma mono_rp t : gmono (read_point S W b ident_ok t).
  Proof.
    unfold read_point. destruct (ShaTranscript.read_point _ _ _ _) as [[[P st] rest]|]; [|gm]. apply gmono_bind; [gm|]. intro. apply gmono_bind; [apply mono_pvar|]. intro.
    apply gmono_bind; [gm|]. intro. apply gmono_bind; [apply mono_cp|]. intro. gm.
  Qed.
  Lemma mono_rs t : gmono (read_scalar S t).
  Proof.
    unfold read_scalar. destruct (ShaTranscript.read_scalar _ _) as [[[x st] rest]|]; [|gm]. apply gmono_bind; [gm|]. intro. apply gmono_bind; [apply mono_svar|]. intro.
    apply gmono_bind; [gm|]. intro. apply gmono_bind; [apply mono_cs|]. intro. gm.
  Qed.
  Lemma mono_sponge h : gmono (Poseidon.squeeze S (gen_chip S) sp T RATE h : G _).
  Proof.
    apply (squeeze_mono S (gen_chip S) (fun X => @gmono X)); cbn.
    - intros. apply gmono_ret.
    - intros. apply gmono_panic.
    - intros. now apply gmono_bind.
    - intros. apply mono_mul.
    - intros. unfold s_mul_add_constant. gm.
    - intros. apply mono_sum.
  Qed.
  Lemma mono_ctxsq o : gmono (ctx_squeeze o).
  Proof. intros g x g' E. unfold ctx_squeeze in E. cbn in E. injection E as <- <-. split; cbn; [lia|]. unfold absorbing_length. cbn. lia. Qed.
  Lemma mono_sq t : gmono (squeeze_challenge_scalar S H sp T RATE t).
  Proof.
    unfold squeeze_challenge_scalar. destruct (ShaTranscript.squeeze_challenge _ _) as [sc st]. apply gmono_bind; [gm|]. intro.
    apply gmono_bind; [apply mono_sponge|]. intros [v h] g x g' E. unfold ctx_squeeze in E. cbn in E. injection E as <- <-.
    split; [cbn; lia|]. unfold absorbing_length. cbn. destruct (N.ltb_spec (g_maxabs g) (g_abs g)).
    - destruct (N.ltb_spec (g_abs g) 1); lia.
    - destruct (N.ltb_spec (g_maxabs g) 1); lia.
  Qed.
  Lemma mono_tcp t P : gmono (common_point S W ident_ok t P). Proof. unfold common_point. apply gmono_bind; [apply mono_cp|]. intro. gm. Qed.
  Lemma mono_tcs t x : gmono (common_scalar S t x). Proof. unfold common_scalar. apply gmono_bind; [apply mono_cs|]. intro. gm. Qed.
  Lemma mono_rs_ r i : gmono (r_s S W r i). Proof. unfold r_s. gm. Qed.
  Lemma mono_rp_ r i : gmono (r_p S W r i). Proof. unfold r_p. gm. Qed.
  Lemma mono_terms r l : gmono (r_terms S W r l). Proof. induction l as [|[i c] l IH]; cbn [r_terms]; gm; auto using mono_rs_. Qed.
  Lemma mono_op o s : gmono (gen_op S W b ident_ok H sp T RATE o s).
  Proof.
    unfold gen_op, ret_s, ret_p, assign_const. destruct o;
    repeat first [ apply gmono_ret | apply gmono_panic | apply gmono_sin | apply gmono_bind; [solve [apply gmono_ret | apply gmono_sin | auto using mono_rs_, mono_rp_, mono_terms, mono_add, mono_sub, mono_mul, mono_div, mono_square, mono_sum, mono_pconst, mono_padd, mono_psub, mono_pmul,
        mono_pmulc, mono_svar, mono_rp, mono_rs, mono_tcp, mono_tcs, mono_sq]|intro] | match goal with |- gmono (match ?c with _ => _ end) => destruct c end ].
  Qed.
  Lemma mono_run l : forall s, gmono (gen_run S W b ident_ok H sp T RATE l s).
  Proof. induction l as [|o l IH]; intro s; cbn [gen_run]; [gm|]. apply gmono_bind; [apply mono_op|]. intro. apply IH. Qed.
End Mono.

(** * The sponge emits nothing and its output is not a constant *)
Definition set_mem (g : gctx) (m : N) : gctx :=
  mkG (g_abs g) (g_maxabs g) m (g_tr g) (g_inst g) (g_tmp g) (g_stmts g) (g_cache g) (g_mock g) (g_in_tr g) (g_in_inst g).
Lemma set_mem_same g : set_mem g (g_mem g) = g. Proof. now destruct g. Qed.
Definition quiet {A} (m : G A) : Prop := forall g x g', m g = Some (x, g') -> g_mock g = true -> g' = set_mem g (g_mem g').
Lemma quiet_ret A (a : A) : quiet (gret a). Proof. intros g x g' [= <- <-] _. symmetry. apply set_mem_same. Qed.
Lemma quiet_panic A : quiet (@gpanic A). Proof. intros g x g'. discriminate. Qed.
Lemma quiet_bind A B (m : G A) (k : A -> G B) : quiet m -> (forall a, quiet (k a)) -> quiet (gbind m k).
Proof.
  intros Hm Hk g x g' E M. unfold gbind in E. destruct (m g) as [[a g1]|] eqn:E1; [|discriminate].
  specialize (Hm _ _ _ E1 M). assert (M1 : g_mock g1 = true) by (rewrite Hm; exact M).
  specialize (Hk _ _ _ _ E M1). rewrite Hk, Hm. reflexivity.
Qed.
Lemma quiet_assign v : quiet (assign_memory v).
Proof.
  intros g x g' E M. unfold assign_memory in E. destruct (cache_get v (g_cache g)); [injection E as <- <-; symmetry; apply set_mem_same|].
  unfold gbind, allocate in E. rewrite M in E. injection E as <- <-. unfold set_mem. cbn. now rewrite M.
Qed.

Section Sponge.
  Variable S : PF.
  Variable sp : pspec S.
  Variables T RATE : nat.
  Lemma quiet_mul x y : quiet (s_mul S x y).
  Proof.
    unfold s_mul, emit, assign_const. repeat (match goal with |- quiet (if ?c then _ else _) => destruct c end); try apply quiet_ret.
    apply quiet_bind; [apply quiet_assign|]. intro. apply quiet_ret.
  Qed.
  Lemma quiet_add x y : quiet (s_add S x y).
  Proof.
    unfold s_add, emit, assign_const. repeat (match goal with |- quiet (if ?c then _ else _) => destruct c end); try apply quiet_ret.
    apply quiet_bind; [apply quiet_assign|]. intro. apply quiet_ret.
  Qed.
  Lemma quiet_sum_loop l : forall acc, quiet (s_sum_loop S l acc).
  Proof.
    induction l as [|[x c] l IH]; intro acc; cbn [s_sum_loop]; [apply quiet_ret|]. unfold assign_const.
    apply quiet_bind; [apply quiet_ret|]. intro. apply quiet_bind; [apply quiet_mul|]. intro. apply quiet_bind; [apply quiet_add|]. intro. apply IH.
  Qed.
  Lemma quiet_sum l c : quiet (s_sum S l c).
  Proof. unfold s_sum, assign_const. apply quiet_bind; [apply quiet_ret|]. intro. apply quiet_sum_loop. Qed.
  Lemma quiet_sponge h : quiet (Poseidon.squeeze S (gen_chip S) sp T RATE h : G _).
  Proof.
    apply (squeeze_mono S (gen_chip S) (fun X => @quiet X)); cbn.
    - intros. apply quiet_ret.
    - intros. apply quiet_panic.
    - intros. now apply quiet_bind.
    - intros. apply quiet_mul.
    - intros. unfold s_mul_add_constant. apply quiet_ret.
    - intros. apply quiet_sum.
  Qed.

  (** results *)
  Definition yields {A} (m : G A) (Q : A -> Prop) : Prop := forall g x g', m g = Some (x, g') -> Q x.
  Lemma yields_bind A B (m : G A) (k : A -> G B) Q : (forall a, yields (k a) Q) -> yields (gbind m k) Q.
  Proof. intros Hk g x g' E. unfold gbind in E. destruct (m g) as [[a g1]|]; [|discriminate]. eapply Hk; eauto. Qed.
  Lemma yields_bind2 A B (m : G A) (k : A -> G B) P Q : yields m P -> (forall a, P a -> yields (k a) Q) -> yields (gbind m k) Q.
  Proof. intros Hm Hk g x g' E. unfold gbind in E. destruct (m g) as [[a g1]|] eqn:E1; [|discriminate]. eapply Hk; eauto. Qed.
  Lemma yields_ret A (a : A) (Q : A -> Prop) : Q a -> yields (gret a) Q.
  Proof. intros Ha g x g' [= <- <-]. exact Ha. Qed.
  Lemma yields_panic A (Q : A -> Prop) : yields gpanic Q.
  Proof. intros g x g'. discriminate. Qed.
  Definition var (x : sval S) : Prop := s_const _ x = false.
  Lemma var_mul x y : var x \/ var y -> yields (s_mul S x y) var.
  Proof.
    unfold var, s_mul. intro V. assert (C : s_const _ x && s_const _ y = false) by (apply andb_false_iff; exact V). rewrite C.
    destruct (s_const _ x) eqn:Ex; [destruct V as [V|V]; [discriminate|]|].
    - cbn [andb]. destruct (is_val _ _ _); [now apply yields_ret|]. rewrite V. cbn [andb]. apply yields_bind. intro. now apply yields_ret.
    - cbn [andb]. destruct (s_const _ y && _); [now apply yields_ret|]. apply yields_bind. intro. now apply yields_ret.
  Qed.
  Lemma var_add x y : var x \/ var y -> yields (s_add S x y) var.
  Proof.
    unfold var, s_add. intro V. assert (C : s_const _ x && s_const _ y = false) by (apply andb_false_iff; exact V). rewrite C.
    destruct (s_const _ x) eqn:Ex; [destruct V as [V|V]; [discriminate|]|].
    - cbn [andb]. destruct (is_val _ _ _); [now apply yields_ret|]. rewrite V. cbn [andb]. apply yields_bind. intro. now apply yields_ret.
    - cbn [andb]. destruct (s_const _ y && _); [now apply yields_ret|]. apply yields_bind. intro. now apply yields_ret.
  Qed.
  Lemma var_sum_loop l : forall acc, var acc \/ Exists (fun t => var (fst t)) l -> yields (s_sum_loop S l acc) var.
  Proof.
    induction l as [|[x c] l IH]; intros acc V; cbn [s_sum_loop].
    - destruct V as [V|V]; [now apply yields_ret|inversion V].
    - unfold assign_const. apply yields_bind. intro k. apply (yields_bind2 _ _ _ _ (fun m => var x -> var m)).
      { intros g m g' E Vx. exact (var_mul _ _ (or_introl Vx) _ _ _ E). }
      intros m Vm. apply (yields_bind2 _ _ _ _ (fun a => var acc \/ var m -> var a)).
      { intros g a g' E Va. exact (var_add _ _ Va _ _ _ E). }
      intros a Va. apply IH. destruct V as [V|V]; [left; auto|]. inversion V as [? ? Vx|? ? Vl]; [left; auto|now right].
  Qed.
  Lemma var_sum l c : Exists (fun t => var (fst t)) l -> yields (s_sum S l c) var.
  Proof. intro V. unfold s_sum. apply yields_bind. intro. apply var_sum_loop. now right. Qed.

  (** the shape of the numbers of the sponge: a non-empty row per word, at least one
      full round after the partial rounds *)
  Definition sponge_shape : Prop := T <> 0%nat /\ sp_end sp <> [] /\ Forall (fun r => r <> []) (sp_mds sp).
  Local Notation cmap := (Poseidon.cmap S (gen_chip S)). Local Notation cfold := (Poseidon.cfold S (gen_chip S)).
  Lemma yields_cmap {X Y} (f : X -> G Y) l (Q : Y -> Prop) : (forall x, In x l -> yields (f x) Q) -> yields (cmap f l : G _) (fun r => Forall Q r /\ length r = length l).
  Proof.
    induction l as [|x l IH]; intro Hf; cbn [Poseidon.cmap]; [apply yields_ret; now split|]. cbn [cbind cret gen_chip].
    eapply yields_bind2; [apply Hf; now left|]. intros y Hy. eapply yields_bind2; [apply IH; intros; apply Hf; now right|]. intros ys [Hys Hl].
    apply yields_ret. split; [now constructor|cbn; congruence].
  Qed.
  Lemma yields_mds s m : yields (apply_mds S (gen_chip S) s m : G _) (fun r => length r = length m).
  Proof. unfold apply_mds. intros g x g' E. eapply (yields_cmap _ m (fun _ => True)) in E; [apply E|]. intros. intros ? ? ? ?. exact I. Qed.
  Lemma var_mds s m : Forall (fun r => r <> []) m -> match s with [] => False | x :: _ => var x end -> yields (apply_mds S (gen_chip S) s m : G _) (Forall var).
  Proof.
    intros Hm Hs. unfold apply_mds. intros g x g' E. eapply (yields_cmap _ m var) in E; [apply E|]. intros row Hr. rewrite Forall_forall in Hm. apply Hm in Hr.
    cbn [c_sum gen_chip]. destruct s as [|y s]; [contradiction|]. destruct row as [|r row]; [congruence|]. cbn [combine]. apply var_sum. left. exact Hs.
  Qed.
  Lemma yields_fold {X Y} (f : Y -> X -> G Y) (Q : Y -> Prop) l : (forall y x, yields (f y x) Q) -> l <> [] -> forall y, yields (cfold f l y : G _) Q.
  Proof.
    intros Hf. induction l as [|x l IH]; [congruence|]. intros _ y. cbn [Poseidon.cfold]. cbn [cbind gen_chip].
    eapply yields_bind2; [apply Hf|]. intros y' Hy'. destruct l; [apply yields_ret, Hy'|]. apply IH. discriminate.
  Qed.
  Lemma var_permutation s i : sponge_shape -> yields (permutation S (gen_chip S) sp T s i : G _) (Forall var).
  Proof.
    intros (HT & He & Hm). unfold permutation. cbn [cbind cret cfail gen_chip]. destruct (sp_start sp) as [|c0 cs]; [apply yields_panic|].
    destruct (sp_r_f sp / 2)%nat; [apply yields_panic|].
    do 5 (apply yields_bind; intro).
    eapply (yields_bind2 _ _ _ _ (fun r => length r = length (sp_mds sp))).
    { apply yields_fold; [|exact He]. intros y c. cbn [cbind gen_chip]. apply yields_bind. intro. apply yields_mds. }
    intros s1 Hs1. destruct (sp_mds sp) as [|row mds] eqn:Em.
    { apply yields_bind. intro s2. intros g x g' E. apply yields_mds in E. destruct x; [constructor|discriminate]. }
    destruct s1 as [|x s1]; [discriminate|]. destruct T as [|T']; [congruence|].
    cbn [repeat sbox_full]. cbn [cbind cret gen_chip].
    eapply (yields_bind2 _ _ _ _ (fun r => match r with [] => False | x :: _ => var x end)).
    - eapply (yields_bind2 _ _ _ _ var).
      + unfold x_power5_with_constant. cbn [cbind c_mul c_mul_add_constant gen_chip]. apply yields_bind. intro. apply yields_bind. intro. now apply yields_ret.
      + intros y Hy. apply yields_bind. intro ys. now apply yields_ret.
    - intros s2 Hs2. apply var_mds; assumption.
  Qed.
  Lemma var_squeeze h : sponge_shape -> yields (Poseidon.squeeze S (gen_chip S) sp T RATE h : G _) (fun r => var (fst r)).
  Proof.
    intro Hs. unfold Poseidon.squeeze. cbn [cbind cret cfail gen_chip].
    eapply (yields_bind2 _ _ _ _ (fun r => (fst r = 0)%nat \/ Forall var (snd r))).
    { destruct (chunks RATE (ps_absorbing h)) as [|c l]; [apply yields_ret; now left|]. apply yields_fold; [|discriminate].
      intros [? s] ch. eapply yields_bind2; [apply var_permutation, Hs|]. intros s' Hs'. apply yields_ret. now right. }
    intros [po s] Hpo. cbn [fst snd] in Hpo. eapply (yields_bind2 _ _ _ _ (Forall var)).
    { destruct (Nat.eqb_spec po 0) as [->|Np]; [apply var_permutation, Hs|]. destruct Hpo as [->|Hpo]; [congruence|]. now apply yields_ret. }
    intros s' Hs'. match goal with |- yields (match ?n with _ => _ end) _ => destruct n as [v|] eqn:Ev end; [|apply yields_panic]. apply yields_ret. cbn [fst].
    rewrite Forall_forall in Hs'. apply Hs'. eapply nth_error_In; eauto.
  Qed.
End Sponge.
