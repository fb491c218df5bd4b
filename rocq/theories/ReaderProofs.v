(** The reader refines the protocol: every reading function is equivalent to a list of
    events. *)
From Coq Require Import String ZArith NArith Arith Bool Lia List.
From Verif Require Import Util Algebra Schema Plonk BuildParams ReaderSpec ListFacts.
Import ListNotations.

Section Proofs.
  Variable F : Fld.
  Variable M : Mod F.
  Variables (PT SC : nat).
  Variable pt_decode : list Z -> option M.
  Variable sc_decode : list Z -> option F.
  Variable St : Type.
  Variable upd_pt : St -> M -> St.
  Variable upd_sc : St -> F -> St.
  Variable sqz : St -> option (F * St).
  Variable vk : vkey F M.

  Local Notation follows := (follows F M PT SC pt_decode sc_decode St upd_pt upd_sc sqz).
  Local Notation ev_step := (ev_step F M PT SC pt_decode sc_decode St upd_pt upd_sc sqz).
  Local Notation read_point := (read_point F M PT pt_decode St upd_pt).
  Local Notation read_scalar := (read_scalar F SC sc_decode St upd_sc).
  Local Notation squeeze_scalar := (squeeze_scalar F St sqz).
  Local Notation tr := (tr St).

  Lemma follows_app es es' t t' : follows (es ++ es') t t' <-> exists t1, follows es t t1 /\ follows es' t1 t'.
  Proof.
    revert t. induction es as [|e es IH]; intro t; cbn [app ReaderSpec.follows].
    - split; [intro H; exists t; auto|intros (t1 & -> & H); exact H].
    - split.
      + intros (t1 & S & H). apply IH in H as (t2 & H & H'). exists t2. split; [exists t1; auto|exact H'].
      + intros (t2 & (t1 & S & H) & H'). exists t1. split; [exact S|]. apply IH. exists t2. auto.
  Qed.
  Lemma follows_one e t t' : follows [e] t t' <-> ev_step e t t'.
  Proof. cbn [ReaderSpec.follows]. split; [intros (t1 & S & ->); exact S|intro S; exists t'; auto]. Qed.
  Lemma follows_cons e es t t' : follows (e :: es) t t' <-> exists t1, ev_step e t t1 /\ follows es t1 t'.
  Proof. reflexivity. Qed.

  Lemma rbind_iff {A B} (m : R St A) (k : A -> R St B) t b t' :
    rbind m k t = Some (b, t') <-> exists a t1, m t = Some (a, t1) /\ k a t1 = Some (b, t').
  Proof.
    unfold rbind. destruct (m t) as [[a t1]|].
    - split; [intro E; exists a, t1; auto|intros (a' & t1' & E & E'); now inversion E; subst].
    - split; [discriminate|intros (a' & t1' & E & _); discriminate].
  Qed.
  Lemma rret_iff {A} (a b : A) (t t' : tr) : rret a t = Some (b, t') <-> b = a /\ t' = t.
  Proof. unfold rret. split; [intro E; now inversion E|intros [-> ->]; reflexivity]. Qed.
  Lemma rlift_iff {A} (o : option A) b (t t' : tr) : rlift o t = Some (b, t') <-> o = Some b /\ t' = t.
  Proof. unfold rlift. destruct o; split; try discriminate; [intro E; now inversion E|intros [E ->]; now inversion E|intros [E _]; discriminate]. Qed.

  (** Functions equivalent to events. *)
  Definition reads {A} (m : R St A) (Q : A -> Prop) (E : A -> list (ev F M)) : Prop :=
    forall t a t', m t = Some (a, t') <-> Q a /\ follows (E a) t t'.

  Lemma read_point_iff : reads read_point (fun _ => True) (fun P => [EvPoint P]).
  Proof.
    intros t P t'. rewrite follows_one. unfold BuildParams.read_point, read_decode, common_point, rbind, rret, ReaderSpec.ev_step, starts.
    destruct (Nat.leb_spec PT (length (t_rest t))) as [L|L].
    - destruct (pt_decode (firstn PT (t_rest t))) as [Q|]; cbn [t_rest t_hash].
      + split; [intro E; inversion E; subst; auto|intros (_ & (_ & E) & ->); inversion E; subst; reflexivity].
      + split; [discriminate|intros (_ & (_ & E) & _); discriminate].
    - split; [discriminate|intros (_ & (E & _) & _); lia].
  Qed.
  Lemma read_scalar_iff : reads read_scalar (fun _ => True) (fun s => [EvScalar s]).
  Proof.
    intros t P t'. rewrite follows_one. unfold BuildParams.read_scalar, read_decode, common_scalar, rbind, rret, ReaderSpec.ev_step, starts.
    destruct (Nat.leb_spec SC (length (t_rest t))) as [L|L].
    - destruct (sc_decode (firstn SC (t_rest t))) as [Q|]; cbn [t_rest t_hash].
      + split; [intro E; inversion E; subst; auto|intros (_ & (_ & E) & ->); inversion E; subst; reflexivity].
      + split; [discriminate|intros (_ & (_ & E) & _); discriminate].
    - split; [discriminate|intros (_ & (E & _) & _); lia].
  Qed.
  Lemma squeeze_iff : reads squeeze_scalar (fun _ => True) (fun c => [EvChal c]).
  Proof.
    intros t c t'. rewrite follows_one. unfold BuildParams.squeeze_scalar, ReaderSpec.ev_step.
    destruct (sqz (t_hash t)) as [[d h]|].
    - split; [intro E; inversion E; subst; split; [exact I|]; exists h; auto|intros (_ & h' & E & ->); now inversion E; subst].
    - split; [discriminate|intros (_ & h' & E & _); discriminate].
  Qed.

  Lemma reads_iff {A} (m : R St A) Q Q' E E' : reads m Q E -> (forall a, Q a <-> Q' a) -> (forall a, Q a -> E a = E' a) -> reads m Q' E'.
  Proof. intros H HQ HE t a t'. rewrite (H t a t'). rewrite HQ. split; intros [q f]; (split; [exact q|]); [rewrite <- HE by now apply HQ|rewrite HE by now apply HQ]; exact f. Qed.

  Lemma reads_map {A B} (f : A -> R St B) (Q : A -> B -> Prop) E : (forall a, reads (f a) (Q a) E) ->
    forall l, reads (rmap f l) (Forall2 Q l) (flat_map E).
  Proof.
    intros H. induction l as [|a l IH]; intros t bs t'; cbn [rmap].
    - rewrite rret_iff. split; [intros [-> ->]; split; [constructor|reflexivity]|].
      intros [q f0]. inversion q; subst. cbn in f0. auto.
    - rewrite rbind_iff. split.
      + intros (b & t1 & E1 & E2). apply H in E1 as [q1 f1']. apply rbind_iff in E2 as (r & t2 & E2 & E3).
        apply IH in E2 as [q2 f2]. apply rret_iff in E3 as [-> ->]. split; [constructor; assumption|].
        cbn [flat_map]. apply follows_app. exists t1. auto.
      + intros [q f0]. inversion q; subst. cbn [flat_map] in f0. apply follows_app in f0 as (t1 & fa & fb).
        exists y, t1. split; [apply H; auto|]. apply rbind_iff. exists l', t'. split; [apply IH; auto|]. apply rret_iff; auto.
  Qed.
  Lemma reads_times {B} (m : R St B) (Q : B -> Prop) E n : reads m Q E ->
    reads (rtimes n m) (fun l => length l = n /\ Forall Q l) (flat_map E).
  Proof.
    intro H. eapply reads_iff; [apply (reads_map (fun _ : unit => m) (fun _ => Q) E)|intros l|reflexivity]; [intros _; exact H|].
    revert n. induction l as [|b l IH]; intros [|n]; cbn [repeat].
    - split; [intro; split; [reflexivity|constructor]|intro; constructor].
    - split; [intro X; inversion X|intros [X _]; discriminate].
    - split; [intro X; inversion X|intros [X _]; discriminate].
    - split.
      + intro X. inversion X; subst. destruct (proj1 (IH n)) as [A B0]; [assumption|]. split; [cbn; now f_equal|constructor; assumption].
      + intros [L X]. inversion X; subst. constructor; [assumption|]. apply IH. split; [now inversion L|assumption].
  Qed.

  Local Notation load_n_points := (load_n_points F M PT pt_decode St upd_pt).
  Local Notation load_n_m_points := (load_n_m_points F M PT pt_decode St upd_pt).
  Local Notation load_n_scalars := (load_n_scalars F SC sc_decode St upd_sc).
  Local Notation load_n_m_scalars := (load_n_m_scalars F SC sc_decode St upd_sc).
  Lemma load_n_points_iff n : reads (load_n_points n) (fun l => length l = n) (map EvPoint).
  Proof.
    eapply reads_iff; [apply reads_times; apply read_point_iff|intro l|intros l _; apply flat_map_map_single].
    split; [now intros [H _]|intro H; split; [exact H|apply Forall_True]].
  Qed.
  Lemma load_n_scalars_iff n : reads (load_n_scalars n) (fun l => length l = n) (map EvScalar).
  Proof.
    eapply reads_iff; [apply reads_times; apply read_scalar_iff|intro l|intros l _; apply flat_map_map_single].
    split; [now intros [H _]|intro H; split; [exact H|apply Forall_True]].
  Qed.
  Lemma load_n_m_points_iff n m : reads (load_n_m_points n m) (fun l => length l = n /\ all_len m l) (fun l => map EvPoint (concat l)).
  Proof. eapply reads_iff; [apply reads_times; apply load_n_points_iff|reflexivity|intros l _; apply flat_map_concat]. Qed.
  Lemma load_n_m_scalars_iff n m : reads (load_n_m_scalars n m) (fun l => length l = n /\ all_len m l) (fun l => map EvScalar (concat l)).
  Proof. eapply reads_iff; [apply reads_times; apply load_n_scalars_iff|reflexivity|intros l _; apply flat_map_concat]. Qed.

  (** the unbounded loop *)
  Lemma read_point_dec t : (exists P t', read_point t = Some (P, t') /\ length (t_rest t') + PT = length (t_rest t))%nat \/
    (read_point t = None /\ forall P, ~ starts PT pt_decode (t_rest t) P).
  Proof.
    unfold BuildParams.read_point, read_decode, common_point, rbind, rret, starts.
    destruct (Nat.leb_spec PT (length (t_rest t))) as [L|L].
    - destruct (pt_decode (firstn PT (t_rest t))) as [Q|]; cbn [t_rest t_hash].
      + left. eexists _, _. split; [reflexivity|]. cbn [t_rest]. rewrite skipn_length. lia.
      + right. split; [reflexivity|]. intros P [_ E]. discriminate.
    - right. split; [reflexivity|]. intros P [E _]. lia.
  Qed.
  Lemma while_iff : (1 <= PT)%nat -> reads (fun t => load_points_while F M PT pt_decode St upd_pt (S (length (t_rest t))) t) (fun _ => True)
                     (fun w => map EvPoint w ++ [EvStop]).
  Proof.
    intros PT_pos t. assert (H : forall n t, (length (t_rest t) < n)%nat -> forall a t', load_points_while F M PT pt_decode St upd_pt n t = Some (a, t') <->
      True /\ follows (map EvPoint a ++ [EvStop]) t t').
    { induction n as [|n IH]; [lia|]. intros u L a t'. cbn [load_points_while].
      destruct (read_point_dec u) as [(P & u' & E & Lu)|[E NS]]; rewrite E.
      - rewrite rbind_iff. split.
        + intros (r & u2 & E1 & E2). apply rret_iff in E2 as [-> ->]. apply IH in E1 as [_ E1]; [|lia].
          split; [exact I|]. cbn [map app]. apply follows_cons. exists u'. split; [|exact E1].
          apply follows_one. now apply read_point_iff.
        + intros [_ H]. destruct a as [|Q a]; cbn [map app] in H; apply follows_cons in H as (u1 & S & H).
          * exfalso. destruct S as [_ S]. apply read_point_iff in E as [_ E]. apply follows_one in E as [E _]. exact (S _ E).
          * assert (X : read_point u = Some (Q, u1)) by (apply read_point_iff; split; [exact I|]; now apply follows_one).
            rewrite E in X. inversion X; subst. exists a, t'. split; [apply IH; [lia|auto]|]. now apply rret_iff.
      - split.
        + intro X. inversion X; subst. split; [exact I|]. cbn [map app]. apply follows_one. split; auto.
        + intros [_ H]. destruct a as [|Q a]; cbn [map app] in H; apply follows_cons in H as (u1 & S & H).
          * destruct S as [-> _]. cbn in H. now subst.
          * exfalso. destruct S as [S _]. exact (NS _ S). }
    intros a t'. apply H. lia.
  Qed.

  (** the phases *)
  Local Notation read_phase := (read_phase F M PT pt_decode St upd_pt).
  Local Notation squeeze_phase := (squeeze_phase F St sqz).
  Lemma of_phase_cons {X} ph p ps (x : X) l : of_phase ph (p :: ps) (x :: l) = (if Nat.eqb ph p then [x] else []) ++ of_phase ph ps l.
  Proof. unfold of_phase. cbn [combine filter fst]. destruct (Nat.eqb ph p); reflexivity. Qed.
  (** [sub f ps old new]: [new] differs from [old] only at entries whose phase is in [f]. *)
  Fixpoint sub {X} (f : nat -> bool) (ps : list nat) (old new : list X) : Prop :=
    match ps, old, new with
    | p :: ps, o :: old, n :: new => (if f p then True else n = o) /\ sub f ps old new
    | _, _, _ => new = old
    end.
  Definition is_some {X} (o : option X) : Prop := exists x, o = Some x.
  Definition points (l : list (option M)) : list (ev F M) := flat_map (fun o => match o with Some P => [EvPoint P] | None => [] end) l.
  Lemma read_phase_iff cur ps cells : reads (read_phase cur ps cells)
    (fun l => sub (Nat.eqb cur) ps cells l /\ length l = length cells /\ Forall is_some (of_phase cur ps l))
    (fun l => points (of_phase cur ps l)).
  Proof.
    assert (NN : forall (ps : list nat) (l : list (option M)), (ps = [] \/ l = []) -> of_phase cur ps l = []).
    { intros ps' l' [->| ->]; [reflexivity|destruct ps'; reflexivity]. }
    assert (Base : forall ps (cells : list (option M)), (ps = [] \/ cells = []) -> (forall l, sub (Nat.eqb cur) ps cells l /\ length l = length cells /\ Forall is_some (of_phase cur ps l) <-> l = cells)).
    { intros ps' cells' H l. split.
      - intros (S & L & _). destruct H as [-> | ->]; [exact S|]. destruct l; [reflexivity|discriminate].
      - intros ->. split; [|split; [reflexivity|rewrite NN by exact H; constructor]]. destruct H as [-> | ->]; [reflexivity|destruct ps'; reflexivity]. }
    revert ps. induction cells as [|c cells IH]; intros [|p ps] t l t'.
    1,2,3: cbn [BuildParams.read_phase]; rewrite rret_iff, Base by auto; split; intros [-> H]; (split; [reflexivity|]); rewrite NN in * by auto; exact H.
    cbn [BuildParams.read_phase]. rewrite rbind_iff. split.
    - intros (d & t1 & E1 & E2). apply rbind_iff in E2 as (r & t2 & E2 & E3). apply rret_iff in E3 as [-> ->].
      apply IH in E2 as [(S & L & A) f2]. cbn [sub]. rewrite of_phase_cons. destruct (Nat.eqb cur p).
      + apply rbind_iff in E1 as (P & t1' & E1 & E1'). apply rret_iff in E1' as [-> ->]. apply read_point_iff in E1 as [_ f1'].
        split; [split; [auto|split; [cbn; now f_equal|constructor; [now exists P|exact A]]]|].
        cbn [app points flat_map]. apply follows_cons. exists t1'. split; [now apply follows_one|exact f2].
      + apply rret_iff in E1 as [-> ->]. split; [split; [auto|split; [cbn; now f_equal|exact A]]|exact f2].
    - intros [(S & L & A) f]. destruct l as [|d l]; [discriminate L|]. cbn [sub] in S. rewrite of_phase_cons in A, f. destruct S as [S0 S].
      destruct (Nat.eqb cur p) eqn:Ep.
      + cbn [app] in A, f. inversion A as [|? ? [P HP] A']; subst d. subst. cbn [points flat_map app] in f. apply follows_cons in f as (t1 & fa & fb).
        exists (Some P), t1. split; [apply rbind_iff; exists P, t1; split; [apply read_point_iff; split; [exact I|now apply follows_one]|now apply rret_iff]|].
        apply rbind_iff. exists l, t'. split; [apply IH; split; [split; [exact S|split; [now inversion L|exact A']]|exact fb]|now apply rret_iff].
      + subst d. exists c, t. split; [now apply rret_iff|]. apply rbind_iff. exists l, t'.
        split; [apply IH; split; [split; [exact S|split; [now inversion L|exact A]]|exact f]|now apply rret_iff].
  Qed.
  Lemma squeeze_phase_iff cur ps cells : reads (squeeze_phase cur ps cells)
    (fun l => sub (Nat.eqb cur) ps cells l /\ length l = length cells) (fun l => map EvChal (of_phase cur ps l)).
  Proof.
    assert (NN : forall (ps : list nat) (l : list F), (ps = [] \/ l = []) -> of_phase cur ps l = []).
    { intros ps' l' [->| ->]; [reflexivity|destruct ps'; reflexivity]. }
    assert (Base : forall ps (cells : list F), (ps = [] \/ cells = []) -> (forall l, sub (Nat.eqb cur) ps cells l /\ length l = length cells <-> l = cells)).
    { intros ps' cells' H l. split.
      - intros (S & L). destruct H as [-> | ->]; [exact S|]. destruct l; [reflexivity|discriminate].
      - intros ->. split; [|reflexivity]. destruct H as [-> | ->]; [reflexivity|destruct ps'; reflexivity]. }
    revert ps. induction cells as [|c cells IH]; intros [|p ps] t l t'.
    1,2,3: cbn [BuildParams.squeeze_phase]; rewrite rret_iff, Base by auto; split; intros [-> H]; (split; [reflexivity|]); rewrite NN in * by auto; exact H.
    cbn [BuildParams.squeeze_phase]. rewrite rbind_iff. split.
    - intros (d & t1 & E1 & E2). apply rbind_iff in E2 as (r & t2 & E2 & E3). apply rret_iff in E3 as [-> ->].
      apply IH in E2 as [(S & L) f2]. cbn [sub]. rewrite of_phase_cons. destruct (Nat.eqb cur p).
      + apply squeeze_iff in E1 as [_ f1']. split; [split; [auto|cbn; now f_equal]|].
        cbn [app map]. apply follows_cons. exists t1. split; [now apply follows_one|exact f2].
      + apply rret_iff in E1 as [-> ->]. split; [split; [auto|cbn; now f_equal]|exact f2].
    - intros [(S & L) f]. destruct l as [|d l]; [discriminate L|]. cbn [sub] in S. rewrite of_phase_cons in f. destruct S as [S0 S].
      destruct (Nat.eqb cur p) eqn:Ep.
      + cbn [app map] in f. apply follows_cons in f as (t1 & fa & fb).
        exists d, t1. split; [apply squeeze_iff; split; [exact I|now apply follows_one]|].
        apply rbind_iff. exists l, t'. split; [apply IH; split; [split; [exact S|now inversion L]|exact fb]|now apply rret_iff].
      + subst d. exists c, t. split; [now apply rret_iff|]. apply rbind_iff. exists l, t'.
        split; [apply IH; split; [split; [exact S|now inversion L]|exact f]|now apply rret_iff].
  Qed.
  Lemma sub_other {X} f ps (old new : list X) ph : sub f ps old new -> f ph = false -> of_phase ph ps new = of_phase ph ps old.
  Proof.
    intros S N. revert old new S. induction ps as [|p ps IH]; intros old new S; [reflexivity|].
    destruct old as [|o old]; [destruct new as [|n new]; [reflexivity|cbn in S; discriminate]|].
    destruct new as [|n new]; [cbn in S; discriminate|].
    destruct S as [S0 S]. rewrite !of_phase_cons, (IH _ _ S). destruct (Nat.eqb_spec ph p) as [->|_]; [|reflexivity].
    rewrite N in S0. now subst.
  Qed.
  Lemma sub_refl {X} f ps (l : list X) : sub f ps l l.
  Proof. revert ps. induction l as [|x l IH]; intros [|p ps]; try reflexivity. cbn. split; [destruct (f p); auto|apply IH]. Qed.
  Lemma sub_trans {X} (f g h : nat -> bool) ps (a b c : list X) : (forall p, h p = f p || g p) -> sub f ps a b -> sub g ps b c -> sub h ps a c.
  Proof.
    intro E. revert a b c. induction ps as [|p ps IH]; intros a b c S1 S2; [cbn in *; congruence|].
    destruct a as [|x a]; [destruct b; [destruct c; [reflexivity|cbn in S2; congruence]|cbn in S1; congruence]|].
    destruct b as [|y b]; [cbn in S1; congruence|]. destruct c as [|z c]; [cbn in S2; congruence|].
    destruct S1 as [H1 S1], S2 as [H2 S2]. cbn. rewrite E. split; [|eapply IH; eassumption].
    destruct (f p), (g p); cbn; congruence || auto.
  Qed.
  (** an intermediate list for the first of two disjoint changes *)
  Fixpoint mix {X} (f : nat -> bool) (ps : list nat) (old new : list X) : list X :=
    match ps, old, new with
    | p :: ps, o :: old, n :: new => (if f p then n else o) :: mix f ps old new
    | _, _, _ => old
    end.
  Lemma mix_sub {X} (f g h : nat -> bool) ps (a c : list X) : (forall p, h p = f p || g p) -> length c = length a -> sub h ps a c ->
    sub f ps a (mix f ps a c) /\ sub g ps (mix f ps a c) c /\ length (mix f ps a c) = length a.
  Proof.
    intros E. revert a c. induction ps as [|p ps IH]; intros a c L S; [cbn in *; auto|].
    destruct a as [|x a]; [destruct c; [cbn; auto|discriminate]|]. destruct c as [|z c]; [discriminate|].
    destruct S as [H S]. cbn in L. destruct (IH a c) as (A1 & A2 & A3); [lia|exact S|]. cbn. rewrite E in H.
    split; [|split; [|now f_equal]]; (split; [|assumption]); destruct (f p), (g p); cbn in H; congruence || auto.
  Qed.
  Lemma mix_of {X} (f : nat -> bool) ps (a c : list X) ph : length c = length a -> f ph = true -> of_phase ph ps (mix f ps a c) = of_phase ph ps c.
  Proof.
    intros L H. revert a c L. induction ps as [|p ps IH]; intros a c L; [reflexivity|].
    destruct a as [|x a]; [destruct c; [reflexivity|discriminate]|]. destruct c as [|z c]; [discriminate|].
    cbn [mix]. rewrite !of_phase_cons, IH by (cbn in L; lia). destruct (Nat.eqb_spec ph p) as [<-|_]; [now rewrite H|reflexivity].
  Qed.

  Definition inl (phases : list nat) (p : nat) : bool := existsb (Nat.eqb p) phases.
  Lemma inl_cons c phases p : inl (c :: phases) p = Nat.eqb c p || inl phases p.
  Proof. unfold inl. cbn [existsb]. now rewrite (Nat.eqb_sym p c). Qed.
  Lemma inl_In phases p : inl phases p = true <-> In p phases.
  Proof. unfold inl. rewrite existsb_exists. split; [intros (x & I & E); apply Nat.eqb_eq in E; now subst|intro I; exists p; split; [exact I|apply Nat.eqb_refl]]. Qed.
  Definition phase_events (A : list (list (option M))) (C : list F) (ph : nat) : list (ev F M) :=
    points (flat_map (of_phase ph (vk_advice_phase vk)) A) ++ map EvChal (of_phase ph (vk_challenge_phase vk) C).
  Definition filled (phases : list nat) (o n : list (option M)) : Prop :=
    sub (inl phases) (vk_advice_phase vk) o n /\ length n = length o /\
    forall ph, In ph phases -> Forall is_some (of_phase ph (vk_advice_phase vk) n).
  Lemma points_flat {X} (g : X -> list (option M)) l : points (flat_map g l) = flat_map (fun x => points (g x)) l.
  Proof. unfold points. induction l as [|x l IH]; cbn [flat_map]; [reflexivity|]. now rewrite flat_map_app, IH. Qed.
  Lemma read_phases_iff phases adv ch : NoDup phases ->
    reads (read_phases F M PT pt_decode St upd_pt sqz vk phases adv ch)
      (fun ac => Forall2 (filled phases) adv (fst ac) /\ sub (inl phases) (vk_challenge_phase vk) ch (snd ac) /\ length (snd ac) = length ch)
      (fun ac => flat_map (phase_events (fst ac) (snd ac)) phases).
  Proof.
    intro ND. revert adv ch. induction ND as [|c phases NI ND IH]; intros adv ch t [A C] t'; cbn [read_phases fst snd].
    - rewrite rret_iff. cbn [flat_map ReaderSpec.follows]. split.
      + intros [E ->]. inversion E; subst. repeat split; [|apply sub_refl].
        clear. induction adv as [|a adv IH]; constructor; [|exact IH]. split; [apply sub_refl|]. split; [reflexivity|intros ph []].
      + intros [(FA & S & L) ->]. split; [|reflexivity]. f_equal.
        * clear -FA. assert (Z0 : forall {X} ps (o n : list X), length n = length o -> sub (inl []) ps o n -> n = o).
          { intros X ps. induction ps as [|p ps IHp]; intros o n L S; [exact S|]. destruct o, n; try exact S; try discriminate. cbn in S. destruct S as [-> S]. f_equal. apply IHp; [now inversion L|exact S]. }
          induction FA as [|o n adv A (S & L & _) FA IH]; [reflexivity|]. f_equal; [eapply Z0; eassumption|exact IH].
        * clear -S L. revert S L. generalize (vk_challenge_phase vk) as ps. intro ps. revert ch C.
          induction ps as [|p ps IHp]; intros o n S L; [exact S|]. destruct o, n; try exact S; try discriminate. cbn in S. destruct S as [-> S]. f_equal. apply IHp; [exact S|now inversion L].
    - assert (Hf : forall p, inl (c :: phases) p = Nat.eqb c p || inl phases p) by apply inl_cons.
      assert (Fc : inl phases c = false) by (destruct (inl phases c) eqn:E; [apply inl_In in E; contradiction|reflexivity]).
      assert (RM := reads_map (read_phase c (vk_advice_phase vk)) _ _ (fun cells => read_phase_iff c (vk_advice_phase vk) cells)).
      split.
      + intro E. apply rbind_iff in E as (A1 & t1 & E1 & E). apply rbind_iff in E as (C1 & t2 & E2 & E).
        apply RM in E1 as [Q1 F1]. apply squeeze_phase_iff in E2 as [[S2 L2] F2]. apply IH in E as [(Q3 & S3 & L3) F3]. cbn [fst snd] in *.
        split; [split; [|split]|].
        * eapply Forall2_compose; [|exact Q1|exact Q3]. intros o m n (Sa & La & Fa) (Sb & Lb & Fb).
          split; [eapply sub_trans; eassumption|]. split; [congruence|]. intros ph [<-|I]; [|now apply Fb].
          rewrite (sub_other _ _ _ _ _ Sb Fc). exact Fa.
        * eapply sub_trans; eassumption.
        * congruence.
        * cbn [flat_map]. apply follows_app. exists t2. split; [|exact F3]. unfold phase_events. apply follows_app. exists t1. split.
          -- rewrite points_flat. replace (flat_map (fun x => points (of_phase c (vk_advice_phase vk) x)) A) with (flat_map (fun x => points (of_phase c (vk_advice_phase vk) x)) A1); [exact F1|].
             eapply flat_map_F2; [|exact Q3]. intros o n (S & _ & _). cbv beta. now rewrite (sub_other _ _ _ _ _ S Fc).
          -- now rewrite (sub_other _ _ _ _ _ S3 Fc).
      + intros [(Q & S & L) F0]. cbn [flat_map] in F0. apply follows_app in F0 as (t2 & Fa & F3). unfold phase_events in Fa. apply follows_app in Fa as (t1 & F1 & F2).
        set (mA := fun o n : list (option M) => mix (Nat.eqb c) (vk_advice_phase vk) o n). set (A1 := map (fun on => mA (fst on) (snd on)) (combine adv A)).
        assert (QA : Forall2 (fun o n => sub (Nat.eqb c) (vk_advice_phase vk) o n /\ length n = length o /\ Forall is_some (of_phase c (vk_advice_phase vk) n)) adv A1 /\
                     Forall2 (fun m n => filled phases m n /\ of_phase c (vk_advice_phase vk) m = of_phase c (vk_advice_phase vk) n) A1 A).
        { subst A1. clear -Q Hf. induction Q as [|o n adv A (S & L & H) Q IHQ]; cbn [combine map fst snd]; [split; constructor|].
          destruct IHQ as [I1 I2]. destruct (mix_sub _ _ _ _ _ _ Hf L S) as (X1 & X2 & X3).
          assert (EO := mix_of (Nat.eqb c) (vk_advice_phase vk) o n c L (Nat.eqb_refl c)).
          split; constructor; [|exact I1| |exact I2].
          - unfold mA. split; [exact X1|]. split; [exact X3|]. rewrite EO. apply H. now left.
          - unfold mA. split; [|exact EO]. split; [exact X2|]. split; [congruence|]. intros ph I. apply H. now right. }
        destruct QA as [Q1 Q2]. destruct (mix_sub _ _ _ _ _ _ Hf L S) as (X1 & X2 & X3).
        apply rbind_iff. exists A1, t1. split.
        { apply RM. split; [exact Q1|]. rewrite points_flat in F1. replace (flat_map (fun l => points (of_phase c (vk_advice_phase vk) l)) A1) with (flat_map (fun l => points (of_phase c (vk_advice_phase vk) l)) A); [exact F1|].
          symmetry. eapply flat_map_F2; [|exact Q2]. intros m n [_ E]. cbv beta. now rewrite E. }
        apply rbind_iff. exists (mix (Nat.eqb c) (vk_challenge_phase vk) ch C), t2. split.
        { apply squeeze_phase_iff. split; [auto|]. rewrite mix_of by (exact L || apply Nat.eqb_refl). exact F2. }
        apply IH. cbn [fst snd]. split; [|exact F3]. split; [|split; [exact X2|congruence]].
        eapply Forall2_weaken; [|exact Q2]. now intros m n [H _].
  Qed.

  (** Columns and challenges of a constraint system: parallel lists, every phase listed
      once. *)
  Definition phases_ok : Prop :=
    NoDup (vk_phases vk) /\ length (vk_advice_phase vk) = vk_num_advice vk /\ length (vk_challenge_phase vk) = vk_num_challenges vk /\
    incl (vk_advice_phase vk) (vk_phases vk) /\ incl (vk_challenge_phase vk) (vk_phases vk).

  Lemma sub_all {X} f ps (o n : list X) : (forall p, In p ps -> f p = true) -> length o = length ps -> length n = length o -> sub f ps o n.
  Proof.
    intro H. revert o n. induction ps as [|p ps IH]; intros o n L1 L2; destruct o, n; try reflexivity; try discriminate.
    cbn. rewrite H by now left. split; [exact I|]. apply IH; [intros; apply H; now right|now inversion L1|now inversion L2].
  Qed.
  Lemma of_phase_incl {X} ph ps (l : list X) x : In x (of_phase ph ps l) -> In x l.
  Proof. unfold of_phase. intro H. apply in_map_iff in H as ([q y] & <- & H). apply filter_In in H as [H _]. now apply in_combine_r in H. Qed.
  Lemma of_phase_all {X} (P : X -> Prop) ps (l : list X) : length l = length ps -> (forall ph, In ph ps -> Forall P (of_phase ph ps l)) -> Forall P l.
  Proof.
    revert l. induction ps as [|p ps IH]; intros [|x l] L H; try discriminate; [constructor|]. constructor.
    - specialize (H p (or_introl eq_refl)). rewrite of_phase_cons, Nat.eqb_refl in H. now inversion H.
    - apply IH; [now inversion L|]. intros ph I. specialize (H ph (or_intror I)). rewrite of_phase_cons in H. now apply Forall_app in H.
  Qed.
  Lemma of_phase_map {X Y} (g : X -> Y) ph ps l : of_phase ph ps (map g l) = map g (of_phase ph ps l).
  Proof.
    revert l. induction ps as [|p ps IH]; intros [|x l]; try reflexivity. cbn [map]. rewrite !of_phase_cons, IH. destruct (Nat.eqb ph p); reflexivity.
  Qed.
  Lemma mapM_id_iff {X} (l : list (option X)) r : mapM (fun x => x) l = Some r <-> l = map Some r.
  Proof.
    revert r. induction l as [|[x|] l IH]; intros r; cbn [mapM].
    - split; [intro E; inversion E; reflexivity|destruct r; [reflexivity|discriminate]].
    - destruct (mapM (fun x => x) l) as [r'|].
      + split; [intro E; inversion E; subst; cbn; f_equal; now apply IH|]. intro E. destruct r as [|y r]; [discriminate|]. cbn in E. inversion E; subst. f_equal. f_equal.
        assert (Z : Some r' = Some r) by now apply IH. now inversion Z.
      + split; [discriminate|]. intro E. destruct r as [|y r]; [discriminate|]. cbn in E. inversion E; subst. assert (Z : @None (list X) = Some r) by now apply IH. discriminate.
    - split; [discriminate|]. intro E. destruct r; discriminate.
  Qed.
  Lemma mapM2_id_iff {X} (l : list (list (option X))) r : mapM (mapM (fun x => x)) l = Some r <-> l = map (map Some) r.
  Proof.
    rewrite mapM_Forall2. split.
    - induction 1 as [|a b l r H _ IH]; [reflexivity|]. cbn. f_equal; [now apply mapM_id_iff|exact IH].
    - intros ->. induction r as [|b r IH]; constructor; [now apply mapM_id_iff|exact IH].
  Qed.
  Lemma points_some l : points (map Some l) = map EvPoint l.
  Proof. unfold points. induction l as [|x l IH]; cbn; [reflexivity|now rewrite IH]. Qed.

  Definition round_events (A : list (list M)) (C : list F) (ph : nat) : list (ev F M) :=
    map EvPoint (flat_map (of_phase ph (vk_advice_phase vk)) A) ++ map EvChal (of_phase ph (vk_challenge_phase vk) C).
  Lemma phase_round A C ph : phase_events (map (map Some) A) C ph = round_events A C ph.
  Proof.
    unfold phase_events, round_events. f_equal. rewrite <- points_some. f_equal.
    induction A as [|a A IH]; cbn [map flat_map]; [reflexivity|]. now rewrite IH, map_app, of_phase_map.
  Qed.
  Lemma read_advice_iff k : phases_ok ->
    reads (read_advice F M PT pt_decode St upd_pt sqz vk k)
      (fun ac => (length (fst ac) = k /\ all_len (vk_num_advice vk) (fst ac)) /\ length (snd ac) = vk_num_challenges vk)
      (fun ac => flat_map (round_events (fst ac) (snd ac)) (vk_phases vk)).
  Proof.
    intros (ND & La & Lc & Ia & Ic) t [A C] t'. cbn [fst snd]. unfold read_advice. rewrite rbind_iff. split.
    - intros ((A0 & C0) & t1 & E1 & E2). apply (read_phases_iff _ _ _ ND) in E1 as [(Q & S & L) F0]. cbn [fst snd] in *.
      apply rbind_iff in E2 as (A1 & t2 & E2 & E3). apply rlift_iff in E2 as [E2 ->]. apply rret_iff in E3 as [E3 ->]. inversion E3; subst A1 C0. clear E3.
      apply mapM2_id_iff in E2. subst A0. rewrite repeat_length in L. split; [split; [|exact L]|].
      + split.
        * apply Forall2_length in Q. rewrite repeat_length, map_length in Q. now symmetry.
        * clear -Q La. remember (repeat (repeat None (vk_num_advice vk)) k) as Z eqn:EZ.
          assert (HZ : Forall (fun z => length z = vk_num_advice vk) Z) by (subst Z; clear; induction k; cbn; constructor; [apply repeat_length|assumption]).
          clear EZ. revert A Q. induction Z as [|z Z IH]; intros [|a A] Q; cbn [map] in Q; inversion Q; subst; [constructor|].
          inversion HZ; subst. constructor; [|apply IH; assumption]. destruct H2 as (_ & E & _). rewrite map_length in E. congruence.
      + erewrite flat_map_ext; [exact F0|]. intro ph. symmetry. apply phase_round.
    - intros [((L1 & L2) & L3) F0]. exists (map (map Some) A, C), t'. split.
      + apply (read_phases_iff _ _ _ ND). cbn [fst snd]. split; [split; [|split]|].
        * clear F0. subst k. induction L2 as [|a A H L2 IH]; cbn [length repeat map]; constructor; [|exact IH].
          split; [apply sub_all; [intros p I; apply inl_In; auto|now rewrite repeat_length|now rewrite map_length, repeat_length]|].
          split; [now rewrite map_length, repeat_length|]. intros ph _. rewrite of_phase_map. apply Forall_forall. intros x I. apply in_map_iff in I as (y & <- & _). now exists y.
        * apply sub_all; [intros p I; apply inl_In; auto|now rewrite repeat_length|now rewrite repeat_length].
        * now rewrite repeat_length.
        * erewrite flat_map_ext; [exact F0|]. intro ph. apply phase_round.
      + apply rbind_iff. exists A, t'. split; [apply rlift_iff; split; [|reflexivity]; now apply mapM2_id_iff|]. cbn [snd]. now apply rret_iff.
  Qed.

  Lemma reads_bind2 {A B} (m : R St A) (n : R St B) QA QB EA EB : reads m QA EA -> reads n QB EB ->
    reads (rbind m (fun a => rbind n (fun b => rret (a, b)))) (fun ab => QA (fst ab) /\ QB (snd ab)) (fun ab => EA (fst ab) ++ EB (snd ab)).
  Proof.
    intros HA HB t [a b] t'. cbn [fst snd]. rewrite rbind_iff. split.
    - intros (a' & t1 & E1 & E2). apply rbind_iff in E2 as (b' & t2 & E2 & E3). apply rret_iff in E3 as [E3 ->]. inversion E3; subst.
      apply HA in E1 as [? ?]. apply HB in E2 as [? ?]. split; [auto|]. apply follows_app. eauto.
    - intros [[q1 q2] F0]. apply follows_app in F0 as (t1 & F1 & F2). exists a, t1. split; [now apply HA|].
      apply rbind_iff. exists b, t'. split; [now apply HB|now apply rret_iff].
  Qed.
  Definition pair_events (l : list (list (M * M))) : list (ev F M) := map EvPoint (flat_map (fun it => [fst it; snd it]) (concat l)).
  Lemma read_lookups_permuted_iff k : reads (read_lookups_permuted F M PT pt_decode St upd_pt vk k)
    (fun l => length l = k /\ all_len (length (vk_lookups vk)) l) pair_events.
  Proof.
    eapply reads_iff; [apply reads_times; apply reads_times; eapply reads_bind2; apply read_point_iff| |].
    - intro l. cbv beta. split; intros [L H]; (split; [exact L|]); (eapply Forall_impl; [|exact H]); cbv beta; [now intros a [? _]|].
      intros a La. split; [exact La|]. apply Forall_forall. auto.
    - intros l _. unfold pair_events. induction l as [|a l IH]; cbn [flat_map concat]; [reflexivity|].
      rewrite flat_map_app, map_app, <- IH. f_equal. clear. cbn [app]. induction a as [|[x y] a IH]; cbn [flat_map fst snd app map]; [reflexivity|]. now rewrite IH.
  Qed.
  Lemma lookups_committed_iff {X} (l : list (list X)) : reads (rmap (rmap (fun _ => read_point)) l)
    (fun r => Forall2 (fun a b => length b = length a) l r) (fun r => map EvPoint (concat r)).
  Proof.
    eapply reads_iff; [apply (reads_map (rmap (fun _ => read_point)) (fun a b => length b = length a) (map EvPoint))|reflexivity|intros; apply flat_map_concat].
    intro a. eapply reads_iff; [apply (reads_map (fun _ : X => read_point) (fun _ _ => True) (fun P => [EvPoint P])); intro; apply read_point_iff| |].
    - intro b. split; [intro H; symmetry; eapply Forall2_length; exact H|]. revert b. induction a; intros [|y b] L; try discriminate; constructor; auto.
    - intros. apply flat_map_map_single.
  Qed.

  (** permutation sets *)
  Definition sets_ok (commitments : list M) (sets : list (perm_set F M)) : Prop :=
    map ps_commitment sets = commitments /\
    forall i s, nth_error sets i = Some s -> (ps_last_eval s = None <-> S i = length sets).
  Definition scalars_of {X} (g : X -> list F) (l : list X) : list (ev F M) := map EvScalar (flat_map g l).
  Lemma read_sets_iff cs : reads (read_sets F M SC sc_decode St upd_sc cs) (sets_ok cs) (scalars_of set_evals).
  Proof.
    induction cs as [|c cs IH]; intros t l t'; cbn [read_sets].
    - rewrite rret_iff. unfold sets_ok, scalars_of. split.
      + intros [-> ->]. split; [|reflexivity]. split; [reflexivity|]. intros [|i] s E; discriminate.
      + intros [(E & _) H]. destruct l; [cbn in H; auto|discriminate].
    - split.
      + intro E. apply rbind_iff in E as (e & t1 & E1 & E). apply rbind_iff in E as (nx & t2 & E2 & E). apply rbind_iff in E as (la & t3 & E3 & E).
        apply rbind_iff in E as (r & t4 & E4 & E). apply rret_iff in E as [-> ->]. apply IH in E4 as [[Hc Hl] F4].
        apply read_scalar_iff in E1 as [_ F1]. apply read_scalar_iff in E2 as [_ F2]. apply follows_one in F1, F2.
        assert (X : (la = None <-> r = []) /\ follows (map EvScalar (match la with Some z => [z] | None => [] end)) t2 t3).
        { destruct cs.
          - apply rret_iff in E3 as [-> ->]. destruct r; [|discriminate]. split; [tauto|reflexivity].
          - apply rbind_iff in E3 as (z & t2' & E3 & E3'). apply rret_iff in E3' as [-> ->]. apply read_scalar_iff in E3 as [_ F3]. split; [|exact F3].
            destruct r; [discriminate Hc|]. split; discriminate. }
        destruct X as [X F3]. split; [split|].
        * cbn [map ps_commitment]. now f_equal.
        * intros [|i] s E; cbn in E; [inversion E; subst; cbn [ps_last_eval length]; rewrite X; split; [intros ->; reflexivity|intro L; destruct r; [reflexivity|discriminate]]|].
          rewrite (Hl _ _ E). cbn [length]. lia.
        * unfold scalars_of. cbn [flat_map]. unfold set_evals at 1. cbn [ps_eval ps_next_eval ps_last_eval map app]. apply follows_cons. exists t1. split; [exact F1|].
          apply follows_cons. exists t2. split; [exact F2|]. rewrite map_app. apply follows_app. exists t3. auto.
      + intros [[Hc Hl] F0]. destruct l as [|s l]; [discriminate|]. cbn [map] in Hc. inversion Hc as [[Hc1 Hc2]].
        unfold scalars_of in F0. cbn [flat_map] in F0. unfold set_evals at 1 in F0. cbn [map app] in F0.
        apply follows_cons in F0 as (t1 & F1 & F0). apply follows_cons in F0 as (t2 & F2 & F0). rewrite map_app in F0. apply follows_app in F0 as (t3 & F3 & F4).
        apply rbind_iff. exists (ps_eval s), t1. split; [apply read_scalar_iff; split; [exact I|now apply follows_one]|].
        apply rbind_iff. exists (ps_next_eval s), t2. split; [apply read_scalar_iff; split; [exact I|now apply follows_one]|].
        apply rbind_iff. exists (ps_last_eval s), t3. split.
        { specialize (Hl O s eq_refl). cbn [length] in Hl. destruct l as [|s' l]; cbn [map] in Hc2.
          - rewrite (proj2 Hl eq_refl) in *. cbn in F3. subst. now apply rret_iff.
          - destruct (ps_last_eval s) as [z|]; [|exfalso; assert (C := proj1 Hl eq_refl); discriminate].
            subst cs. apply rbind_iff. exists z, t3. split; [apply read_scalar_iff; auto|now apply rret_iff]. }
        apply rbind_iff. exists l, t'. split.
        { rewrite Hc2. apply IH. split; [split; [exact Hc2|]|exact F4]. intros i s' E. rewrite (Hl (S i) s' E). cbn [length]. lia. }
        apply rret_iff. split; [|reflexivity]. subst. destruct s; reflexivity.
  Qed.
  Lemma read_all_sets_iff (cs : list (list M)) : reads (rmap (read_sets F M SC sc_decode St upd_sc) cs) (Forall2 sets_ok cs) (fun l => scalars_of set_evals (concat l)).
  Proof.
    eapply reads_iff; [apply (reads_map (read_sets F M SC sc_decode St upd_sc) sets_ok (scalars_of set_evals)); apply read_sets_iff|reflexivity|].
    intros l _. unfold scalars_of. induction l as [|a l IH]; cbn [flat_map concat]; [reflexivity|]. now rewrite IH, flat_map_app, map_app.
  Qed.

  (** lookups *)
  Definition lookup_ok (key : string) (i : nat) (a : nat * (M * M * M * (list (expr F) * list (expr F)))) (l : lookup_evaluated F M) : Prop :=
    let '(j, ((pi, pt, pr), (ie, te))) := a in
    le_key l = (key ++ "_" ++ fmt_nat i ++ "_" ++ fmt_nat j)%string /\ le_input l = ie /\ le_table l = te /\
    le_permuted_input_commitment l = pi /\ le_permuted_table_commitment l = pt /\ le_product_commitment l = pr.
  Lemma read_lookup_iff key i a : reads (read_lookup F M SC sc_decode St upd_sc key i a) (lookup_ok key i a) (fun l => map EvScalar (lookup_evals l)).
  Proof.
    destruct a as [j [[[pi pt] pr] [ie te]]]. intros t l t'. cbn [read_lookup lookup_ok]. split.
    - intro E. apply rbind_iff in E as (e1 & t1 & E1 & E). apply rbind_iff in E as (e2 & t2 & E2 & E). apply rbind_iff in E as (e3 & t3 & E3 & E).
      apply rbind_iff in E as (e4 & t4 & E4 & E). apply rbind_iff in E as (e5 & t5 & E5 & E). apply rret_iff in E as [-> ->].
      apply read_scalar_iff in E1 as [_ F1], E2 as [_ F2], E3 as [_ F3], E4 as [_ F4], E5 as [_ F5]. apply follows_one in F1, F2, F3, F4, F5.
      split; [repeat split|]. unfold lookup_evals. cbn [le_product_eval le_product_next_eval le_permuted_input_eval le_permuted_input_inv_eval le_permuted_table_eval map].
      apply follows_cons. exists t1. split; [exact F1|]. apply follows_cons. exists t2. split; [exact F2|]. apply follows_cons. exists t3. split; [exact F3|].
      apply follows_cons. exists t4. split; [exact F4|]. now apply follows_one.
    - intros [(Hk & <- & <- & <- & <- & <-) F0]. unfold lookup_evals in F0. cbn [map] in F0.
      apply follows_cons in F0 as (t1 & F1 & F0). apply follows_cons in F0 as (t2 & F2 & F0). apply follows_cons in F0 as (t3 & F3 & F0). apply follows_cons in F0 as (t4 & F4 & F5).

      apply rbind_iff. eexists _, t1. split; [apply read_scalar_iff; split; [exact I|apply follows_one; eassumption]|]. apply rbind_iff. eexists _, t2. split; [apply read_scalar_iff; split; [exact I|apply follows_one; eassumption]|].
      apply rbind_iff. eexists _, t3. split; [apply read_scalar_iff; split; [exact I|apply follows_one; eassumption]|]. apply rbind_iff. eexists _, t4. split; [apply read_scalar_iff; split; [exact I|apply follows_one; eassumption]|].
      apply rbind_iff. eexists _, t'. split; [apply read_scalar_iff; split; [exact I|exact F5]|]. apply rret_iff. split; [|reflexivity]. rewrite <- Hk. destruct l; reflexivity.
  Qed.


  Definition le_pair (l : lookup_evaluated F M) : M * M := (le_permuted_input_commitment l, le_permuted_table_commitment l).
  Lemma lookups_of_proof key i p c ls : length p = length (vk_lookups vk) -> length c = length p ->
    Forall2 (lookup_ok key i) (enumerate (combine (combine p c) (vk_lookups vk))) ls <->
    p = map le_pair ls /\ c = map le_product_commitment ls /\ lookups_static vk key i ls.
  Proof.
    intros Lp Lc. rewrite Forall2_nth, enumerate_length, !combine_length, Lc, Nat.min_id, Lp, Nat.min_id. split.
    - intros [L H].
      assert (G : forall j l, nth_error ls j = Some l -> exists pp cc a, nth_error p j = Some pp /\ nth_error c j = Some cc /\ nth_error (vk_lookups vk) j = Some a /\ lookup_ok key i (j, (pp, cc, a)) l).
      { intros j l E. assert (J : (j < length ls)%nat) by (apply nth_error_Some; congruence).
        destruct (nth_error_ex p j) as [pp Ep]; [lia|]. destruct (nth_error_ex c j) as [cc Ec]; [lia|]. destruct (nth_error_ex (vk_lookups vk) j) as [a Ea]; [lia|].
        exists pp, cc, a. repeat split; auto. apply (H j); [|exact E]. apply enumerate_nth_error. split; [reflexivity|]. apply combine_nth_error. split; [|exact Ea]. apply combine_nth_error; auto. }
      split; [|split; [|split; [exact L|]]].
      + apply nth_ext_err; [rewrite map_length; congruence|]. intros j x y E1 E2. rewrite nth_error_map in E2. destruct (nth_error ls j) as [l|] eqn:El; [|discriminate].
        destruct (G _ _ El) as ([pi pt] & cc & [ie te] & Ep & Ec & Ea & (_ & _ & _ & A & B & _)). cbn in E2. inversion E2. unfold le_pair. rewrite A, B. congruence.
      + apply nth_ext_err; [rewrite map_length; congruence|]. intros j x y E1 E2. rewrite nth_error_map in E2. destruct (nth_error ls j) as [l|] eqn:El; [|discriminate].
        destruct (G _ _ El) as ([pi pt] & cc & [ie te] & Ep & Ec & Ea & (_ & _ & _ & _ & _ & C)). cbn in E2. inversion E2. rewrite C. congruence.
      + intros j l a El Ea'. destruct (G _ _ El) as ([pi pt] & cc & [ie te] & Ep & Ec & Ea & (A & B & C & _)). rewrite Ea in Ea'. inversion Ea'; subst. auto.
    - intros (-> & -> & L & H). split; [exact L|]. intros j [j' [[[pi pt] pr] [ie te]]] l E El.
      apply enumerate_nth_error in E as [-> E]. apply combine_nth_error in E as [E Ea]. apply combine_nth_error in E as [E1 E2].
      rewrite nth_error_map, El in E1, E2. cbn in E1, E2. inversion E1; inversion E2; subst. destruct (H _ _ _ El Ea) as (A & B & C). cbn [fst snd] in *. cbn. auto 10.
  Qed.
  Lemma build_lookup_iff key permuted committed : all_len (length (vk_lookups vk)) permuted -> Forall2 (fun a b => length b = length a) permuted committed ->
    reads (build_lookup_evaluated F M SC sc_decode St upd_sc vk key permuted committed)
      (fun r => length r = length permuted /\ permuted = map (map le_pair) r /\ committed = map (map le_product_commitment) r /\
                forall i ls, nth_error r i = Some ls -> lookups_static vk key i ls)
      (fun r => scalars_of lookup_evals (concat r)).
  Proof.
    intros Ap Ac. assert (Lc := Forall2_length _ _ _ Ac).
    pose (QQ := fun (a : nat * (list (M * M) * list M)) ls => Forall2 (lookup_ok key (fst a)) (enumerate (combine (combine (fst (snd a)) (snd (snd a))) (vk_lookups vk))) ls).
    eapply reads_iff; [apply (reads_map _ QQ (scalars_of lookup_evals))| |].
    - intros [i [p c]]. eapply reads_iff; [apply (reads_map _ (lookup_ok key i) (fun l => map EvScalar (lookup_evals l))); apply read_lookup_iff|reflexivity|].
      intros ls _. unfold scalars_of. induction ls as [|l ls IH]; cbn [flat_map]; [reflexivity|]. now rewrite IH, map_app.
    - intro r. rewrite Forall2_nth, enumerate_length, combine_length, <- Lc, Nat.min_id.
      assert (NP : forall i p c, nth_error permuted i = Some p -> nth_error committed i = Some c -> length p = length (vk_lookups vk) /\ length c = length p).
      { intros i p c E1 E2. split; [eapply (proj1 (Forall_forall _ _) Ap); eapply nth_error_In; exact E1|]. apply Forall2_nth in Ac as [_ Ac]. eapply Ac; eassumption. }
      split.
      + intros [L H].
        assert (G : forall i ls, nth_error r i = Some ls -> exists p c, nth_error permuted i = Some p /\ nth_error committed i = Some c /\ p = map le_pair ls /\ c = map le_product_commitment ls /\ lookups_static vk key i ls).
        { intros i ls E. assert (J : (i < length r)%nat) by (apply nth_error_Some; congruence).
          destruct (nth_error_ex permuted i) as [p Ep]; [lia|]. destruct (nth_error_ex committed i) as [c Ec]; [lia|]. destruct (NP _ _ _ Ep Ec) as [L1 L2].
          exists p, c. split; [exact Ep|]. split; [exact Ec|]. apply lookups_of_proof; auto. apply (H i (i, (p, c)) ls); [|exact E]. apply enumerate_nth_error. split; [reflexivity|]. apply combine_nth_error; auto. }
        split; [exact L|]. split; [|split].
        * apply nth_ext_err; [rewrite map_length; congruence|]. intros j x y E1 E2. rewrite nth_error_map in E2. destruct (nth_error r j) as [ls|] eqn:El; [|discriminate].
          destruct (G _ _ El) as (p & c & Ep & Ec & A & B & _). cbn in E2. congruence.
        * apply nth_ext_err; [rewrite map_length; congruence|]. intros j x y E1 E2. rewrite nth_error_map in E2. destruct (nth_error r j) as [ls|] eqn:El; [|discriminate].
          destruct (G _ _ El) as (p & c & Ep & Ec & A & B & _). cbn in E2. congruence.
        * intros i ls E. now destruct (G _ _ E) as (p & c & _ & _ & _ & _ & S).
      + intros (L & Ep & Ec & S). split; [exact L|]. intros i [i' [p c]] ls E El. apply enumerate_nth_error in E as [-> E]. apply combine_nth_error in E as [E1 E2].
        destruct (NP _ _ _ E1 E2) as [L1 L2]. apply lookups_of_proof; cbn [fst snd]; auto. split; [|split; [|now apply S]].
        * rewrite Ep, nth_error_map, El in E1. cbn in E1. now inversion E1.
        * rewrite Ec, nth_error_map, El in E2. cbn in E2. now inversion E2.
    - intros r _. unfold scalars_of. induction r as [|a l IH]; cbn [flat_map concat]; [reflexivity|]. now rewrite IH, flat_map_app, map_app.
  Qed.
End Proofs.
