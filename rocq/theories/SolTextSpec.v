(** Which statements the printer is meant for. *)
From Coq Require Import ZArith NArith List.
From Verif Require Import SolIr.

(** What a Rust value and Solidity allow: offsets are machine words whose successor is one
    (the printer adds one), exponents and counts are machine words, constants are natural
    numbers, and the second argument of [squeeze_challenge] is a uint32. *)
Definition offset (o : N) : Prop := (o + 1 < 2 ^ 64)%N.
Fixpoint in_range (e : expr) : Prop :=
  match e with
  | EMemory o _ | ETranscript o _ | EInstance o _ | ETmpBuf o _ => offset o
  | EPoint x y => (0 <= x)%Z /\ (0 <= y)%Z
  | EScalar z => (0 <= z)%Z
  | EAdd l r _ | ESub l r _ | EMul l r _ | EDiv l r _ => in_range l /\ in_range r
  | EMulAdd l r c _ => in_range l /\ in_range r /\ in_range c
  | EMulAddPM e opcode _ => in_range e /\ (0 <= opcode)%Z
  | EMulAddMT m opcode => offset m /\ (0 <= opcode)%Z
  | EPow e n _ => in_range e /\ (n < 2 ^ 64)%N
  | EHash o => (o < 2 ^ 32)%N
  | ETemp _ => True
  end.
Definition stmt_in_range (s : stmt) : Prop :=
  match s with
  | Assign l r => in_range l /\ in_range r
  | UpdateHash e o => in_range e /\ offset o
  | For ms me mst as_ ast _ => offset ms /\ offset me /\ offset mst /\ offset as_ /\ offset ast
  | ForMMMMul (l, a, c) (dl, da, dc) n _ => offset l /\ offset a /\ offset c /\ offset dl /\ offset da /\ offset dc /\ (n < 2 ^ 64)%N
  end.
(** Printing panics for some statements only: a power of a point, a loop over calldata whose
    end is before its start or whose step is 0, a loop of multiplications of points. *)
Definition prints (s : stmt) : Prop :=
  match s with
  | Assign _ (EPow _ _ t) => t = TScalar
  | For ms me mst _ _ _ => (ms <= me)%N /\ mst <> 0%N
  | ForMMMMul _ _ _ t => t = TScalar
  | _ => True
  end.
