(** A transcript whose way of encoding points is not fixed: the native verifier is run on
    proofs together with the field elements that its transcripts absorb for each point
    ("hints").  Nothing here models repository code; it states what the constraints of the
    circuit leave open. *)
From Coq Require Import ZArith NArith Arith List Bool.
From Verif Require Import Util Algebra PField Bn254 Curve CurveMod Schema Plonk Poseidon PoseidonSpec BuildParams VerifyCircuit.
Import ListNotations.

Section Hints.
  Variables N W : PF.
  Variable M : Mod N.
  Variable affine : M -> point W.
  Variable sp : pspec N.
  Variable RATE : nat.
  Notation sponge := (pstate N (mock_chip N)).
  (** which pairs of field elements may be absorbed for a point *)
  Variable allowed : N * N -> point W -> bool.

  (** the hints left and the sponge; [None] after a hint that is not allowed *)
  Definition hinted : Type := option (list (N * N) * sponge).
  Definition hinted_pt (st : hinted) (P : M) : hinted :=
    match st with
    | Some (e :: l, h) => if allowed e (affine P) then Some (l, update N (mock_chip N) h [fst e; snd e]) else None
    | _ => None
    end.
  Definition hinted_sc (st : hinted) (s : N) : hinted :=
    match st with Some (l, h) => Some (l, update N (mock_chip N) h [s]) | None => None end.
  Definition hinted_sqz (st : hinted) : option (N * hinted) :=
    match st with
    | Some (l, h) => match squeeze N (mock_chip N) sp (S RATE) RATE h with Some (c, h) => Some (c, Some (l, h)) | None => None end
    | None => None
    end.

  (** The native transcript: coordinates as integers below the modulus, 0 and 0 for the
      identity (mock/transcript_encode.rs:30-73). *)
  Definition coordinates (P : point W) : N * N := match P with Inf => (f0, f0) | Aff x y => (ofZ (toZ x), ofZ (toZ y)) end.
  Definition native_pt (h : sponge) (P : M) : sponge := update N (mock_chip N) h [fst (coordinates (affine P)); snd (coordinates (affine P))].
  Definition native_sc (h : sponge) (s : N) : sponge := update N (mock_chip N) h [s].
  Definition native_sqz : sponge -> option (N * sponge) := squeeze N (mock_chip N) sp (S RATE) RATE.
End Hints.
Arguments coordinates {N W} _.

Section Allowed.
  Variables N W : PF.
  Definition eqn (x y : N) : bool := if feq_dec x y then true else false.
  (** Only the native encoding. *)
  Definition exact (e : N * N) (P : point W) : bool := eqn (fst e) (fst (coordinates P)) && eqn (snd e) (snd (coordinates P)).
  (** Coordinates as any integers below 64 times the modulus that stand for them; anything
      for the identity. *)
  Definition stands_for (e : N) (x : W) : bool := existsb (fun k => eqn e (ofZ (toZ x + Z.of_nat k * pf_n W))) (seq 0 64).
  Definition loose (e : N * N) (P : point W) : bool :=
    match P with Inf => true | Aff x y => stands_for (fst e) x && stands_for (snd e) y end.
End Allowed.
Arguments exact {N W} _ _. Arguments stands_for {N W} _ _. Arguments loose {N W} _ _.

(** The points of BN254 as a vector space over the scalar field, and as points. *)
Section Affine.
  Variables S W : PF.
  Hypothesis HS : pf_n S = fr_mod.
  Hypothesis HW : pf_n W = fq_mod.
  Definition g1_affine (P : G1 S W HS HW) : point W := proj1_sig (P : cpt W (ofZ 3)).
End Affine.

(** Other proofs for the same circuits: same verifying keys, parameters and names, instances
    of the same shapes. *)
Section Same.
  Variable N : PF.
  Variable M : Mod N.
  Notation given := (given N (kzg N M) (key N M)).
  Definition shape (inst : list (list (list N))) : list (list nat) := map (map (@List.length N)) inst.
  Definition same_but_proofs (g g' : given) : Prop :=
    g_name g' = g_name g /\ g_params g' = g_params g /\ g_vk g' = g_vk g /\
    Forall2 (fun p p' => gp_key p' = gp_key p /\ shape (gp_instances p') = shape (gp_instances p)) (g_proofs g) (g_proofs g').
  (** The same for the form the verifier takes, its transcripts being in a [fresh] state. *)
  Definition serves {St} (fresh : St -> Prop) (g : given) (c : circuit_proof N M St) : Prop :=
    cp_vk c = fst (g_vk g) /\ cp_columns c = snd (g_vk g) /\ cp_g_lagrange c = k_lagrange _ _ (g_params g) /\ cp_generator c = k_generator _ _ (g_params g) /\
    Forall2 (fun p d => pd_key d = gp_key p /\ shape (pd_instances d) = shape (gp_instances p) /\ fresh (t_hash (pd_transcript d))) (g_proofs g) (cp_proofs c).
End Same.
Arguments shape {N} _. Arguments same_but_proofs {N M} _ _. Arguments serves {N M St} _ _ _.
