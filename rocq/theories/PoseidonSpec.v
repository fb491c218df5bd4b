(** The sponge as a function on lists of field elements: what the chip should
    compute.  Nothing here models repository code. *)
From Coq Require Import List Arith Lia.
From Verif Require Import Util Algebra Poseidon.
Import ListNotations.

Section Spec.
  Variable F : Fld.
  Variable sp : pspec F.
  Variable RATE : nat.

  Definition zip {X Y Z} (f : X -> Y -> Z) (a : list X) (b : list Y) : list Z := map (fun '(x, y) => f x y) (combine a b).
  Definition vadd (a b : list F) : list F := zip fadd a b.
  Definition dot (a b : list F) : F := fold_right fadd f0 (zip fmul a b).
  Definition mat (m : list (list F)) (s : list F) : list F := map (dot s) m.
  Definition pow5 (x : F) : F := fmul x (fmul (fmul x x) (fmul x x)).

  Definition full_round (m : list (list F)) (c : list F) (s : list F) : list F := mat m (vadd (map pow5 s) c).
  (** the sparse matrix: first row [row], first column below it [col], identity elsewhere *)
  Definition partial_round (c : F) (rowcol : list F * list F) (s : list F) : list F :=
    match s with
    | [] => []
    | x :: s => let y := fadd (pow5 x) c in
                dot (y :: s) (fst rowcol) :: zip (fun e x => fadd (fmul y e) x) (snd rowcol) s
    end.
  (** the permutation *)
  Definition perm (s : list F) : list F :=
    let s := vadd s (hd [] (sp_start sp)) in
    let s := fold_left (fun s c => full_round (sp_mds sp) c s) (firstn (sp_r_f sp / 2 - 1) (tl (sp_start sp))) s in
    let s := full_round (sp_pre_sparse_mds sp) (last (sp_start sp) []) s in
    let s := fold_left (fun s '(c, m) => partial_round c m s) (combine (sp_partial sp) (sp_sparse sp)) s in
    let s := fold_left (fun s c => full_round (sp_mds sp) c s) (sp_end sp) s in
    full_round (sp_mds sp) (repeat f0 (S RATE)) s.

  (** the message followed by 1 and as few zeros as needed to fill the last block *)
  Definition pad (l : list F) : list F := l ++ f1 :: repeat f0 (RATE - 1 - length l mod RATE).
  Definition blocks (l : list F) : list (list F) := chunks RATE (pad l).
  Definition absorb_block (s block : list F) : list F := perm (vadd s (f0 :: block)).
  (** state after a squeeze of the pending elements [l] *)
  Definition sponge (s l : list F) : list F := fold_left absorb_block (blocks l) s.
  Definition challenge (s : list F) : F := nth 1 s f0.

  (** a whole history of calls *)
  Inductive hcall := HUpdate (l : list F) | HSqueeze.
  Fixpoint history (cs : list hcall) (s pending : list F) : list F * (list F * list F) :=
    match cs with
    | [] => ([], (s, pending))
    | HUpdate l :: cs => history cs s (pending ++ l)
    | HSqueeze :: cs => let s := sponge s pending in
                        let '(vs, r) := history cs s [] in (challenge s :: vs, r)
    end.

  (** the constants have the shapes of a state of [RATE + 1] words *)
  Definition wf_spec : Prop :=
    let T := S RATE in
    (1 <= RATE)%nat /\ (1 <= sp_r_f sp / 2)%nat /\ sp_start sp <> [] /\
    Forall (fun c => length c = T) (sp_start sp) /\ Forall (fun c => length c = T) (sp_end sp) /\
    length (sp_mds sp) = T /\ Forall (fun r => length r = T) (sp_mds sp) /\
    length (sp_pre_sparse_mds sp) = T /\ Forall (fun r => length r = T) (sp_pre_sparse_mds sp) /\
    Forall (fun m => length (fst m) = T /\ length (snd m) = RATE) (sp_sparse sp).
End Spec.
Arguments zip {X Y Z} _ _ _. Arguments vadd {F} _ _. Arguments dot {F} _ _. Arguments mat {F} _ _. Arguments pow5 {F} _.
Arguments full_round {F} _ _ _. Arguments partial_round {F} _ _ _. Arguments perm {F} _ _ _. Arguments pad {F} _ _. Arguments blocks {F} _ _.
Arguments absorb_block {F} _ _ _ _. Arguments sponge {F} _ _ _ _. Arguments challenge {F} _.
Arguments HUpdate {F} _. Arguments HSqueeze {F}. Arguments history {F} _ _ _ _ _. Arguments wf_spec {F} _ _.
