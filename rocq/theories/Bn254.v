(** The two moduli of the aggregation circuits (BN254): the circuit is written
    over the scalar field Fr, the emulated curve coordinates live in Fq. *)
From Coq Require Import ZArith.
Definition fr_mod : Z := 21888242871839275222246405745257275088548364400416034343698204186575808495617.
Definition fq_mod : Z := 21888242871839275222246405745257275088696311157297823662689037894645226208583.
