(** The library for sums of multiples: templates/lagrange.sol, [LibMulexp]. *)
From Coq Require Import ZArith List Bool.
From Verif Require Import Util Algebra PField Curve Evm.
Import ListNotations.
Local Open Scope Z_scope.

Section Mulexp.
  Variable W : PF.
  Variable b : W.

  (** lagrange.sol:5-10 *)
  Definition infinite : Z * Z := (0, 0).
  (** lagrange.sol:12-30, the precompile at address 6 and [require(result)] *)
  Definition add (p q : Z * Z) : option (Z * Z) := ecAdd b (fst p) (snd p) (fst q) (snd q).
  (** lagrange.sol:32-50.  Calls nest; [frames] is the number of nested calls for which the
      stack of the EVM has room, and without room the call fails.  How many words a call takes
      on the stack is the compiler's choice. *)
  Fixpoint exp (frames : nat) (scalar : Z) (base : Z * Z) : option (Z * Z) :=
    match frames with
    | O => None
    | S frames =>
        if scalar =? 0 then Some infinite
        else if scalar =? 1 then Some base
        else if scalar mod 2 =? 1 then do tmp <- exp frames (scalar - 1) base; add base tmp
        else do tmp <- add base base; exp frames (scalar / 2) tmp
    end.
  (** lagrange.sol:59-68, the loop; indexing past the end of [bases] cannot happen after the
      [require] and fails here *)
  Fixpoint multiexp_loop (frames : nat) (scalars : list Z) (bases : list (Z * Z)) (acc : Z * Z) : option (Z * Z) :=
    match scalars, bases with
    | [], _ => Some acc
    | s :: ss, p :: ps => do tmp <- exp frames s p; do acc <- add acc tmp; multiexp_loop frames ss ps acc
    | _ :: _, [] => None
    end.
  (** lagrange.sol:52-69 *)
  Definition multiexp (frames : nat) (scalars : list Z) (bases : list (Z * Z)) : option (Z * Z) :=
    if (length scalars <=? length bases)%nat then multiexp_loop frames scalars bases infinite else None.
End Mulexp.
Arguments exp {W} _ _ _ _. Arguments multiexp {W} _ _ _ _. Arguments add {W} _ _ _. Arguments multiexp_loop {W} _ _ _ _ _.
