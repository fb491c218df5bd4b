(** Range-checked rows: contracts of [one_line_in_range]. *)
From Coq Require Import ZArith Arith Lia List Bool Ring Field.
From Verif Require Import Util Algebra PField Gate GateProofs GateOps.
Import ListNotations.
Local Open Scope fld_scope.

Section Range.
  Variable N : PF.
  Add Field NF : (f_th N).
  Implicit Types (w : asg N) (c : ctx N).

  Definition lookups (r common : nat) (lead : option nat) : list (constr N) :=
    map (fun i => CRange (r, i) common) (seq 0 (VAR_COLUMNS - 1)) ++
    match lead with Some l => [CRange (r, 0%nat) l] | None => [] end.

  Lemma range_snd w common lead ps k ms (P : list (aval N) -> Prop) :
    (forall r, let ps := resize VAR_COLUMNS pair_empty ps in
               copied N w r 0 ps ->
               k + dot w r 0 (map snd ps) + muls w r 0 (resize MUL_COLUMNS 0 ms) = 0 ->
               (forall i, (i < 4)%nat -> (toZ (w (r, i)) < 2 ^ Z.of_nat common)%Z) ->
               (forall l, lead = Some l -> (toZ (w (r, 0%nat)) < 2 ^ Z.of_nat l)%Z) ->
               P (cells_of r 0 ps)) ->
    snd_ w (one_line_in_range common lead ps k ms 0) P.
  Proof.
    intros H c cells c' E Hs. unfold one_line_in_range in E.
    destruct (one_line ps k ms 0 c) as [[cells0 c1]|] eqn:E1; [|discriminate].
    injection E as -> <-. change (Forall (holds w) (lookups (offset c) common lead ++ emitted c1)) in Hs.
    apply Forall_app in Hs. destruct Hs as [Hl Hs]. apply Forall_app in Hl. destruct Hl as [Hcom Hlead].
    destruct (one_line_row _ _ _ _ _ _ _ _ _ E1 Hs) as (H1 & _ & -> & H2 & H3).
    split; [assumption|]. apply H; [assumption| | |].
    - refine (eq_trans _ H3). ring.
    - intros i Hi. rewrite Forall_map, Forall_forall in Hcom. apply (Hcom i). apply in_seq. unfold VAR_COLUMNS. lia.
    - intros l ->. now apply Forall_cons_iff in Hlead.
  Qed.

  Lemma range_cpl c common lead ps k ms :
    (length ps <= VAR_COLUMNS)%nat -> (length ms <= MUL_COLUMNS)%nat -> in_valid N c ps -> row_ok N ps k ms ->
    let vs := map (fun p => vs_val (fst p)) (resize VAR_COLUMNS pair_empty ps) in
    (forall i, (i < 4)%nat -> (toZ (nth i vs (@f0 N)) < 2 ^ Z.of_nat common)%Z) ->
    (forall l, lead = Some l -> (toZ (nth 0%nat vs (@f0 N)) < 2 ^ Z.of_nat l)%Z) ->
    cpl c (one_line_in_range common lead ps k ms 0)
      (fun cells c' => cells = cells_of (offset c) 0 (resize VAR_COLUMNS pair_empty ps) /\ Forall (valid c') cells).
  Proof.
    intros H1 H2 Hv He vs Hcom Hlead G.
    destruct (row_cpl N c ps k ms H1 H2 Hv He G) as (cells & c1 & E & L & G1 & -> & V).
    set (cells := cells_of (offset c) 0 (resize VAR_COLUMNS pair_empty ps)) in *.
    exists cells, (mkCtx (offset c1) (lookups (offset c) common lead ++ emitted c1) (adv c1)).
    unfold one_line_in_range. rewrite E. split; [reflexivity|].
    split; [exact L|]. split; [|split; [reflexivity|exact V]].
    assert (Hrow : forall i w, (i < 5)%nat -> agree (offset c1) w (adv c1) -> w (offset c, i) = nth i vs 0).
    { intros i w Hi Hw. destruct (one_line_run _ _ _ _ _ _ _ _ E) as (_ & _ & _ & Ho & _).
      rewrite Hw by lia.
      assert (Hx : exists s kk, nth_error (resize VAR_COLUMNS pair_empty ps) i = Some (s, kk)).
      { destruct (nth_error (resize VAR_COLUMNS pair_empty ps) i) as [[s kk]|] eqn:Ei; [now exists s, kk|].
        apply nth_error_None in Ei. rewrite resize_length in Ei. unfold VAR_COLUMNS in Ei. lia. }
      destruct Hx as (s & kk & Hi').
      assert (Hcell : forall (l : list (vschema N * N)) r i j, nth_error l j = Some (s, kk) ->
                nth_error (cells_of r i l) j = Some (AV (r, (i + j)%nat) (vs_val s))).
      { induction l as [|[s' k'] l IH]; intros r i0 [|j] Hj; cbn in *; try discriminate.
        - injection Hj as -> ->. now rewrite Nat.add_0_r.
        - rewrite (IH _ _ _ Hj). do 3 f_equal. lia. }
      specialize (Hcell _ (offset c) 0%nat i Hi'). apply nth_error_In in Hcell.
      apply (proj1 (Forall_forall _ _) V) in Hcell. destruct Hcell as [_ Hcell]. cbn in Hcell. rewrite Hcell.
      unfold vs. apply (map_nth_error (fun p => vs_val (fst p))) in Hi'. cbn [fst] in Hi'.
      symmetry. now apply nth_error_nth. }
    intros w Hw. unfold sat. cbn [emitted offset adv] in *. apply Forall_app. split; [|now apply G1].
    apply Forall_app. split.
    - rewrite Forall_map. apply Forall_forall. intros i Hi. apply in_seq in Hi. unfold VAR_COLUMNS in Hi.
      cbn [holds]. rewrite Hrow by (auto; lia). apply Hcom. lia.
    - destruct lead as [l|]; [|constructor]. apply Forall_cons; [|constructor].
      cbn [holds]. rewrite Hrow by (auto; lia). now apply Hlead.
  Qed.
End Range.
