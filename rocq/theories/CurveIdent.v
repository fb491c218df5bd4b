(** The polynomial identities behind associativity of the chord-and-tangent law,
    with explicit cofactors (found by linear algebra, checked by [ring]). *)
From Coq Require Import ZArith NArith Lia List Bool Ring Field.
From Verif Require Import Util Algebra Curve.
Local Open Scope fld_scope.

Section Identities.
  Variable F : Fld.
  Add Field FF0 : (f_th F).
  Variables l m x1 x2 x3 y2 : F.
  Local Notation k1 := (l * l * (x2 - x1) - (1 + 1) * y2 * l + (x2 * x2 + x2 * x1 + x1 * x1)).
  Local Notation k2 z := (m * m * (x2 - z) - (1 + 1) * y2 * m + (x2 * x2 + x2 * z + z * z)).
  Local Notation x12 := (l * l - x2 - x1).
  Local Notation y12 := (l * (x2 - x12) - y2).
  Local Notation x23 z := (m * m - x2 - z).
  Local Notation y23 z := (m * (x2 - x23 z) - y2).
  Local Notation y1 := (y2 + l * (x1 - x2)).
  Local Notation y3 := (y2 + m * (x3 - x2)).
  Local Notation A := (y12 - y3).
  Local Notation B := (x12 - x3).
  Local Notation C z := (y1 - y23 z).
  Local Notation D z := (x1 - x23 z).

  Lemma generic_x : A * A * D x3 * D x3 - C x3 * C x3 * B * B - (l * l - m * m + (1 + 1) * x3 - (1 + 1) * x1) * B * B * D x3 * D x3 =
    (0 - ((1+1)*(1+1))*x3*x3*x3 - ((1+1)*(1+1))*x2*x3*x3 - ((1+1)*(1+1))*x2*x2*x3 - (1+1)*x2*x2*x2 + ((1+1)*(1+1))*x1*x3*x3 +
      ((1+1)*(1+(1+1)*(1+1)))*x1*x2*x3 + ((1+1)*(1+1))*x1*x2*x2 + ((1+1)*(1+1+1))*x1*x1*x3 + ((1+1)*(1+1+1))*x1*x1*x2 + (1+1)*x1*x1*x1 +
      ((1+1)*((1+1)*(1+1)))*m*x3*y2 + ((1+1)*(1+1))*m*x2*y2 + ((1+1)*(1+1+1))*m*m*x3*x3 - (1+1)*m*m*x2*x3 - m*m*x2*x2 - ((1+1)*(1+1))*m*m*x1*x3 -
      (1+(1+1)*(1+1))*m*m*x1*x2 - (1+1+1)*m*m*x1*x1 - ((1+1)*(1+1))*m*m*m*y2 - (1+1)*m*m*m*m*x3 + (1+1)*m*m*m*m*x2 - ((1+1)*(1+1))*l*x3*y2 -
      ((1+1)*(1+1))*l*x2*y2 - ((1+1)*(1+1))*l*x1*y2 + ((1+1)*(1+1+1))*l*m*x2*x3 + ((1+1)*(1+1+1))*l*m*x2*x2 + ((1+1)*(1+1+1))*l*m*x1*x2 +
      (1+1)*l*m*m*y2 - ((1+1)*(1+1))*l*m*m*m*x2 - (1+1)*l*m*m*m*x1 - (1+1)*l*l*x3*x3 - (1+1)*l*l*x2*x3 + l*l*x2*x2 - ((1+1)*(1+1+1))*l*l*x1*x3 -
      (1+1+1)*l*l*x1*x2 - (1+1+1)*l*l*x1*x1 + (1+1)*l*l*m*m*x3 + l*l*m*m*x2 + (1+1+1)*l*l*m*m*x1 + (1+1)*l*l*l*y2 - (1+1)*l*l*l*m*x3 -
      ((1+1)*(1+1))*l*l*l*m*x2 + (1+1)*l*l*l*m*m*m - l*l*l*l*x2 + l*l*l*l*x1) * k1 +
    (0 - (1+1)*x3*x3*x3 - ((1+1)*(1+1+1))*x2*x3*x3 + (1+1)*x2*x2*x2 - ((1+1)*(1+1+1))*x1*x3*x3 - ((1+1)*(1+1+1))*x1*x2*x3 + ((1+1)*(1+1))*m*x3*y2 +
      ((1+1)*(1+1))*m*x2*y2 + ((1+1)*(1+1))*m*x1*y2 + (1+1+1)*m*m*x3*x3 + (1+1+1)*m*m*x2*x3 - (1+1+1)*m*m*x2*x2 + ((1+1)*(1+1+1))*m*m*x1*x3 -
      (1+1)*m*m*m*y2 - m*m*m*m*x3 + m*m*m*m*x2 - ((1+1)*((1+1)*(1+1)))*l*x3*y2 - ((1+1)*(1+1))*l*x2*y2 - ((1+1)*(1+1+1))*l*m*x2*x3 -
      ((1+1)*(1+1+1))*l*m*x2*x2 - ((1+1)*(1+1+1))*l*m*x1*x2 + ((1+1)*(1+1))*l*m*m*y2 + ((1+1)*(1+1))*l*m*m*m*x2 + (1+1)*l*m*m*m*x1 + (1+1+1)*l*l*x3*x3
      + (1+(1+1)*((1+1)*(1+1)))*l*l*x2*x3 + (1+1+1)*l*l*x2*x2 - (1+1)*l*l*m*y2 - (1+1+1)*l*l*m*m*x3 - (1+1+1)*l*l*m*m*x2 + (1+1)*l*l*l*m*x3 +
      ((1+1)*(1+1))*l*l*l*m*x2 - (1+1)*l*l*l*m*m*m) * k2 x3.
  Proof. ring. Qed.
  Lemma generic_y : D x3 * (A * ((1 + 1) * x12 + x3) * B * B - A * A * A - y12 * B * B * B)
      - B * (C x3 * ((x1 + x12 + x3) * B * B - A * A) - y1 * B * B * D x3) =
    ((1+1)*x2*x3*y2 + ((1+1)*(1+1))*x1*x3*y2 + ((1+1)*(1+1))*x1*x2*y2 + (1+1)*x1*x1*y2 + (1+1+1)*m*x3*x3*x3 + (1+1)*m*x2*x3*x3 - (1+1)*m*x2*x2*x3 -
      (1+1+1)*m*x2*x2*x2 + ((1+1)*(1+1))*m*x1*x3*x3 - ((1+1)*(1+1))*m*x1*x2*x2 + (1+1)*m*x1*x1*x3 - (1+1)*m*x1*x1*x2 - ((1+1)*(1+1+1))*m*m*x3*y2 +
      (1+1)*m*m*x2*y2 - (1+1)*m*m*x1*y2 - (1+1+1)*m*m*m*x3*x3 + ((1+1)*(1+1))*m*m*m*x2*x3 - m*m*m*x2*x2 - m*m*m*x1*x3 + m*m*m*x1*x2 -
      ((1+1)*(1+1))*l*y2*y2 + (1+(1+1)*(1+1+1))*l*x3*x3*x3 + ((1+1)*((1+1)*(1+1+1)))*l*x2*x3*x3 + ((1+1)*((1+1)*(1+1)))*l*x2*x2*x3 +
      (1+(1+1)*(1+1))*l*x2*x2*x2 - ((1+1)*(1+(1+1)*(1+1)))*l*x1*x2*x3 - ((1+1)*((1+1)*(1+1)))*l*x1*x2*x2 - ((1+1)*(1+1))*l*x1*x1*x3 -
      ((1+1)*((1+1)*(1+1)))*l*x1*x1*x2 - (1+1)*l*x1*x1*x1 - ((1+1)*(1+(1+1)*((1+1)*(1+1))))*l*m*x3*y2 - ((1+1)*(1+1+1))*l*m*x2*y2 -
      (1+(1+1)*(1+(1+1)*(1+1)))*l*m*m*x3*x3 + ((1+1)*(1+1))*l*m*m*x2*x3 + (1+1+1)*l*m*m*x2*x2 + (1+1+1)*l*m*m*x1*x3 + (1+(1+1)*(1+1))*l*m*m*x1*x2 +
      (1+1)*l*m*m*x1*x1 + ((1+1)*((1+1)*(1+1)))*l*m*m*m*y2 + ((1+1)*(1+1))*l*m*m*m*m*x3 - ((1+1)*(1+1))*l*m*m*m*m*x2 - (1+1)*l*l*x3*y2 +
      ((1+1)*(1+1+1))*l*l*x2*y2 + (1+1)*l*l*x1*y2 - (1+1)*l*l*m*x3*x3 + ((1+1)*(1+1+1))*l*l*m*x2*x3 - ((1+1)*(1+1))*l*l*m*x2*x2 + l*l*m*x1*x3 -
      l*l*m*x1*x2 + (1+1)*l*l*m*m*y2 + l*l*m*m*m*x3 - l*l*m*m*m*x2 + ((1+1)*((1+1)*(1+1)))*l*l*l*x2*x3 + (1+1)*l*l*l*x2*x2 +
      (1+(1+1)*(1+1+1))*l*l*l*x1*x3 + (1+(1+1)*((1+1)*(1+1)))*l*l*l*x1*x2 + ((1+1)*(1+1))*l*l*l*x1*x1 - (1+1+1)*l*l*l*m*m*x3 -
      (1+(1+1)*(1+1))*l*l*l*m*m*x2 - ((1+1)*(1+1))*l*l*l*m*m*x1 - ((1+1)*(1+1))*l*l*l*l*y2 - (1+1+1)*l*l*l*l*m*x3 + (1+1+1)*l*l*l*l*m*x2 -
      (1+1+1)*l*l*l*l*l*x3 - l*l*l*l*l*x2 - (1+1)*l*l*l*l*l*x1 + (1+1)*l*l*l*l*l*m*m) * k1 +
    (0 - (1+1)*x3*x3*y2 - ((1+1)*(1+1))*x2*x3*y2 - ((1+1)*(1+1))*x1*x3*y2 - (1+1)*x1*x2*y2 + ((1+1)*(1+1))*m*y2*y2 - (1+1)*m*x3*x3*x3 -
      (1+1)*m*x2*x3*x3 + m*x2*x2*x3 + (1+1+1)*m*x2*x2*x2 - ((1+1)*(1+1))*m*x1*x3*x3 - m*x1*x2*x3 + (1+(1+1)*(1+1))*m*x1*x2*x2 - (1+1+1)*m*x1*x1*x3 +
      (1+1+1)*m*x1*x1*x2 + ((1+1)*(1+1+1))*m*m*x3*y2 - (1+1)*m*m*x2*y2 + (1+1)*m*m*x1*y2 + (1+1)*m*m*m*x3*x3 - (1+1)*m*m*m*x2*x3 + m*m*m*x1*x3 -
      m*m*m*x1*x2 + ((1+1)*(1+1))*l*x2*x3*x3 + l*x2*x2*x3 - (1+(1+1)*(1+1))*l*x2*x2*x2 + (1+1)*l*x1*x3*x3 + (1+(1+1)*(1+1))*l*x1*x2*x3 - l*x1*x2*x2 -
      (1+1+1)*l*x1*x1*x3 - (1+1+1)*l*x1*x1*x2 + ((1+1)*(1+1+1))*l*m*x3*y2 - ((1+1)*(1+(1+1)*(1+1+1)))*l*m*x2*y2 - ((1+1)*(1+1))*l*m*x1*y2 -
      ((1+1)*(1+(1+1)*(1+1)))*l*m*m*x2*x3 + ((1+1)*(1+1+1))*l*m*m*x2*x2 - (1+(1+1)*(1+1))*l*m*m*x1*x3 + l*m*m*x1*x2 + (1+1)*l*m*m*x1*x1 +
      ((1+1)*((1+1)*((1+1)*(1+1))))*l*l*x3*y2 + ((1+1)*(1+(1+1)*(1+1+1)))*l*l*x2*y2 + (1+1)*l*l*m*x3*x3 - (1+(1+1)*(1+1+1))*l*l*m*x2*x3 +
      (1+(1+1)*(1+1))*l*l*m*x2*x2 - ((1+1)*(1+(1+1)*(1+1)))*l*l*m*m*y2 - l*l*m*m*m*x3 + l*l*m*m*m*x2 - (1+1)*l*l*l*x3*x3 -
      (1+(1+1)*((1+1)*((1+1)*(1+1))))*l*l*l*x2*x3 - (1+(1+1)*(1+(1+1)*(1+1)))*l*l*l*x2*x2 + ((1+1)*(1+1))*l*l*l*m*y2 + (1+(1+1)*(1+1))*l*l*l*m*m*x3 +
      (1+(1+1)*(1+1+1))*l*l*l*m*m*x2 + (1+1+1)*l*l*l*l*m*x3 - (1+1+1)*l*l*l*l*m*x2 + (1+1+1)*l*l*l*l*l*x3 + (1+1+1)*l*l*l*l*l*x2 - (1+1)*l*l*l*l*l*m*m) * k2 x3.
  Proof. ring. Qed.

  Local Notation e2 := (y2 + m * (x12 - x2) - y12).
  Local Notation T := ((1 + 1 + 1) * x12 * x12).
  Local Notation U := ((1 + 1) * y12).
  Local Notation D' := (D x12).
  Local Notation C' := (C x12).
  Lemma double_x : T * T * D' * D' - U * U * C' * C' - ((1 + 1) * x12 - x1 - x23 x12) * U * U * D' * D' =
    (0 - ((1+1)*((1+1)*((1+1)*((1+1)*(1+1)))))*x2*y2*y2 - ((1+1)*(1+1))*x1*y2*y2 - ((1+1)*(1+1+1))*x1*x2*x2*x2 - (1+(1+1)*((1+1)*(1+1)))*x1*x1*x2*x2
      - (1+(1+1)*((1+1)*(1+1)))*x1*x1*x1*x2 - (1+1+1)*x1*x1*x1*x1 + ((1+1)*(1+(1+1)*(1+(1+1)*((1+1)*(1+(1+1)*(1+1))))))*m*x2*x2*y2 +
      ((1+1)*((1+1)*(1+(1+1)*((1+1)*((1+1)*(1+1))))))*m*x1*x2*y2 + ((1+1)*(1+(1+1)*(1+1+1)))*m*x1*x1*y2 - ((1+1)*((1+1)*((1+1)*(1+1))))*m*m*y2*y2 -
      ((1+1)*(1+(1+1)*((1+1)*(1+(1+1)*(1+1)))))*m*m*x2*x2*x2 - ((1+1)*(1+(1+1)*(1+(1+1)*(1+1+1))))*m*m*x1*x2*x2 - (1+(1+1)*((1+1)*(1+1)))*m*m*x1*x1*x2
      - ((1+1)*(1+1+1))*m*m*m*x1*y2 + (1+(1+1)*((1+1)*(1+(1+1)*(1+1))))*m*m*m*m*x2*x2 + (1+(1+1)*((1+1)*((1+1)*((1+1)*(1+1)))))*m*m*m*m*x1*x2 +
      ((1+1)*((1+1)*(1+1+1)))*m*m*m*m*x1*x1 + ((1+1)*((1+1)*((1+1)*((1+1)*(1+(1+1)*(1+1))))))*l*x2*x2*y2 +
      ((1+1)*(1+(1+1)*(1+(1+1)*((1+1)*(1+(1+1)*(1+1))))))*l*x1*x2*y2 + ((1+1)*(1+(1+1)*(1+1+1)))*l*x1*x1*y2 - ((1+1)*((1+1)*(1+1+1)))*l*m*y2*y2 -
      ((1+1)*((1+1)*((1+1)*((1+1)*(1+1+1)))))*l*m*x2*x2*x2 - ((1+1)*((1+1)*((1+1)*(1+1+1))))*l*m*x1*x2*x2 +
      ((1+1)*((1+1)*((1+1)*(1+(1+1)*(1+1)))))*l*m*m*x2*y2 + ((1+1)*(1+(1+1)*(1+1+1)))*l*m*m*x1*y2 + (1+1)*l*m*m*m*m*y2 +
      ((1+1)*((1+1)*(1+1+1)))*l*l*y2*y2 - ((1+1)*(1+(1+1)*((1+1)*(1+1))))*l*l*x2*x2*x2 + ((1+1)*((1+1)*(1+1+1)))*l*l*x1*x2*x2 +
      ((1+1)*((1+1)*(1+1+1)))*l*l*x1*x1*x2 + (1+1+1)*l*l*x1*x1*x1 - ((1+1)*((1+1)*(1+1+1)))*l*l*m*x2*y2 + ((1+1)*(1+1+1))*l*l*m*x1*y2 -
      ((1+1)*(1+(1+1)*(1+(1+1)*(1+1))))*l*l*m*m*x2*x2 - ((1+1)*((1+1)*((1+1)*((1+1)*((1+1)*(1+1))))))*l*l*m*m*x1*x2 -
      (1+(1+1)*((1+1)*((1+1)*(1+1+1))))*l*l*m*m*x1*x1 - ((1+1)*(1+1+1))*l*l*m*m*m*y2 - (1+(1+1)*(1+(1+1)*(1+(1+1)*(1+1))))*l*l*m*m*m*m*x2 -
      (1+(1+1)*(1+(1+1)*((1+1)*(1+1))))*l*l*m*m*m*m*x1 - ((1+1)*(1+(1+1)*(1+(1+1)*((1+1)*((1+1)*(1+1))))))*l*l*l*x2*y2 -
      ((1+1)*((1+1)*(1+(1+1)*(1+1))))*l*l*l*x1*y2 + ((1+1)*((1+1)*((1+1)*(1+1))))*l*l*l*m*x2*x2 - ((1+1)*((1+1)*(1+1)))*l*l*l*m*x1*x2 -
      ((1+1)*((1+1)*(1+1)))*l*l*l*m*x1*x1 - ((1+1)*(1+1+1))*l*l*l*m*m*y2 - ((1+1)*((1+1)*((1+1)*(1+1))))*l*l*l*m*m*m*x2 -
      ((1+1)*((1+1)*(1+1)))*l*l*l*m*m*m*x1 + (1+(1+1)*((1+1)*((1+1)*(1+1))))*l*l*l*l*x2*x2 + (1+(1+1)*(1+(1+1)*(1+(1+1)*(1+1))))*l*l*l*l*x1*x2 +
      (1+(1+1)*(1+1))*l*l*l*l*x1*x1 + ((1+1)*((1+1)*(1+1+1)))*l*l*l*l*m*y2 + (1+(1+1)*((1+1)*((1+1)*(1+(1+1)*(1+1)))))*l*l*l*l*m*m*x2 +
      ((1+1)*(1+(1+1)*((1+1)*((1+1)*(1+1)))))*l*l*l*l*m*m*x1 + (1+(1+1)*(1+1+1))*l*l*l*l*m*m*m*m + ((1+1)*(1+(1+1)*(1+1+1)))*l*l*l*l*l*y2 +
      ((1+1)*((1+1)*(1+1)))*l*l*l*l*l*m*x2 + ((1+1)*((1+1)*((1+1)*(1+1))))*l*l*l*l*l*m*x1 + ((1+1)*((1+1)*(1+1)))*l*l*l*l*l*m*m*m -
      ((1+1)*(1+(1+1)*((1+1)*(1+1+1))))*l*l*l*l*l*l*x2 - (1+(1+1)*(1+1+1))*l*l*l*l*l*l*x1 - (1+(1+1)*((1+1)*(1+1)))*l*l*l*l*l*l*m*m -
      ((1+1)*((1+1)*(1+1)))*l*l*l*l*l*l*l*m + (1+1)*l*l*l*l*l*l*l*l) * k1 +
    (0 - ((1+1)*((1+1)*((1+1)*((1+1)*(1+1+1)))))*x2*y2*y2 - ((1+1)*((1+1)*(1+1+1)))*x1*y2*y2 + ((1+1)*(1+1+1))*x1*x2*x2*x2 +
      (1+(1+1)*((1+1)*(1+1)))*x1*x1*x2*x2 + (1+(1+1)*((1+1)*(1+1)))*x1*x1*x1*x2 + (1+1+1)*x1*x1*x1*x1 +
      ((1+1)*(1+(1+1)*((1+1)*(1+(1+1)*(1+1)))))*m*x2*x2*y2 - ((1+1)*(1+1+1))*m*m*x2*x2*x2 - ((1+1)*(1+1+1))*m*m*x1*x2*x2 - (1+1+1)*m*m*x1*x1*x2 -
      (1+1+1)*m*m*x1*x1*x1 - ((1+1)*(1+(1+1)*((1+1)*(1+(1+1)*(1+1)))))*l*x1*x2*y2 - ((1+1)*((1+1)*(1+1+1)))*l*x1*x1*y2 +
      ((1+1)*((1+1)*((1+1)*(1+1))))*l*m*y2*y2 - ((1+1)*((1+1)*(1+1+1)))*l*m*m*x2*y2 + ((1+1)*(1+1+1))*l*m*m*x1*y2 +
      ((1+1)*(1+(1+1)*((1+1)*(1+1))))*l*l*x2*x2*x2 - ((1+1)*((1+1)*(1+(1+1)*((1+1)*(1+1)))))*l*l*m*x2*y2 + ((1+1)*((1+1)*(1+1+1)))*l*l*m*m*x2*x2 -
      ((1+1)*(1+1+1))*l*l*l*x2*y2 + ((1+1)*((1+1)*((1+1)*(1+1+1))))*l*l*l*m*x2*x2 + ((1+1)*(1+(1+1)*(1+1)))*l*l*l*m*m*y2 +
      ((1+1)*((1+1)*(1+1+1)))*l*l*l*l*x2*x2 - ((1+1)*(1+1+1))*l*l*l*l*m*y2 - (1+(1+1)*(1+(1+1)*(1+1+1)))*l*l*l*l*m*m*x2 -
      ((1+1)*((1+1)*(1+(1+1)*(1+1))))*l*l*l*l*l*y2 + (1+(1+1)*(1+(1+1)*(1+1+1)))*l*l*l*l*l*l*x2 + (1+1+1)*l*l*l*l*l*l*m*m - (1+1+1)*l*l*l*l*l*l*l*l) * k2 x12 +
    (0 - ((1+1)*((1+1)*(1+1)))*y2*y2*y2 + ((1+1)*((1+1)*((1+1)*(1+(1+1)*(1+1)))))*x2*x2*x2*y2 + ((1+1)*((1+1)*((1+1)*((1+1)*(1+1+1)))))*x1*x2*x2*y2 +
      ((1+1)*((1+1)*((1+1)*((1+1)*(1+1+1)))))*x1*x1*x2*y2 + ((1+1)*((1+1)*(1+1)))*x1*x1*x1*y2 - ((1+1)*((1+1)*((1+1)*((1+1)*(1+1+1)))))*m*x2*y2*y2 -
      ((1+1)*((1+1)*((1+1)*(1+1+1))))*m*x2*x2*x2*x2 - ((1+1)*((1+1)*((1+1)*(1+1+1))))*m*x1*y2*y2 - ((1+1)*((1+1)*((1+1)*(1+1+1))))*m*x1*x2*x2*x2 -
      ((1+1)*((1+1)*((1+1)*(1+1+1))))*m*x1*x1*x2*x2 + ((1+1)*((1+1)*((1+1)*((1+1)*(1+1+1)))))*m*m*x2*x2*y2 - ((1+1)*((1+1)*(1+1)))*m*m*m*y2*y2) * e2.
  Proof. ring. Qed.
  Lemma double_y : D' * (T * ((1 + 1 + 1) * x12 * U * U - T * T) - y12 * U * U * U)
      - U * (C' * ((x1 + (1 + 1) * x12) * U * U - T * T) - y1 * U * U * D') =
    (0 - ((1+1)*((1+1)*((1+1)*(1+(1+1)*((1+1)*((1+1)*(1+1)))))))*x2*x2*y2*y2 - ((1+1)*((1+1)*((1+1)*(1+1))))*x2*x2*x2*x2*x2 -
      ((1+1)*((1+1)*(1+(1+1)*(1+(1+1)*(1+(1+1)*(1+1+1))))))*x1*x2*y2*y2 - ((1+1)*(1+(1+1)*(1+(1+1)*(1+(1+1)*(1+1)))))*x1*x2*x2*x2*x2 -
      ((1+1)*((1+1)*((1+1)*((1+1)*((1+1)*(1+1))))))*x1*x1*y2*y2 - (1+(1+1)*((1+1)*((1+1)*(1+(1+1)*((1+1)*(1+1))))))*x1*x1*x2*x2*x2 -
      (1+(1+1)*((1+1)*(1+(1+1)*(1+1+1))))*x1*x1*x1*x2*x2 + x1*x1*x1*x1*x2 + x1*x1*x1*x1*x1 +
      ((1+1)*((1+1)*((1+1)*(1+(1+1)*(1+(1+1)*(1+1))))))*m*y2*y2*y2 + ((1+1)*(1+(1+1)*(1+(1+1)*((1+1)*(1+(1+1)*((1+1)*(1+1+1)))))))*m*x2*x2*x2*y2 +
      ((1+1)*(1+(1+1)*(1+(1+1)*((1+1)*(1+(1+1)*((1+1)*(1+1)))))))*m*x1*x2*x2*y2 - ((1+1)*(1+1))*m*x1*x1*x1*y2 -
      ((1+1)*((1+1)*(1+(1+1)*(1+(1+1)*(1+(1+1)*(1+1+1))))))*m*m*x2*y2*y2 - (1+(1+1)*((1+1)*(1+(1+1)*(1+(1+1)*(1+(1+1)*(1+1+1))))))*m*m*x2*x2*x2*x2 -
      ((1+1)*((1+1)*((1+1)*((1+1)*(1+1)))))*m*m*x1*y2*y2 + (1+(1+1)*(1+(1+1)*(1+(1+1)*(1+(1+1)*(1+1)))))*m*m*x1*x2*x2*x2 +
      (1+(1+1)*(1+(1+1)*((1+1)*(1+(1+1)*(1+(1+1)*((1+1)*(1+1+1)))))))*m*m*x1*x1*x2*x2 +
      (1+(1+1)*((1+1)*((1+1)*(1+(1+1)*((1+1)*((1+1)*(1+1)))))))*m*m*x1*x1*x1*x2 + ((1+1)*((1+1)*(1+(1+1)*(1+1+1))))*m*m*x1*x1*x1*x1 +
      ((1+1)*(1+(1+1)*((1+1)*(1+(1+1)*((1+1)*((1+1)*(1+1)))))))*m*m*m*x2*x2*y2 + ((1+1)*(1+1+1))*m*m*m*x1*x2*y2 -
      ((1+1)*((1+1)*((1+1)*(1+1+1))))*m*m*m*m*y2*y2 - ((1+1)*(1+(1+1)*(1+(1+1)*((1+1)*(1+1+1)))))*m*m*m*m*x2*x2*x2 +
      ((1+1)*((1+1)*(1+1+1)))*m*m*m*m*m*x2*y2 + ((1+1)*(1+1+1))*m*m*m*m*m*m*x2*x2 - (1+1)*m*m*m*m*m*m*m*y2 - ((1+1)*((1+1)*(1+1)))*l*y2*y2*y2 +
      ((1+1)*((1+1)*(1+(1+1)*(1+(1+1)*((1+1)*((1+1)*(1+(1+1)*(1+1))))))))*l*x2*x2*x2*y2 +
      ((1+1)*((1+1)*(1+(1+1)*((1+1)*((1+1)*(1+(1+1)*((1+1)*(1+1+1))))))))*l*x1*x2*x2*y2 +
      ((1+1)*(1+(1+1)*(1+(1+1)*((1+1)*((1+1)*((1+1)*(1+1+1)))))))*l*x1*x1*x2*y2 + ((1+1)*(1+(1+1)*(1+(1+1)*(1+1))))*l*x1*x1*x1*y2 -
      ((1+1)*((1+1)*((1+1)*((1+1)*(1+(1+1)*((1+1)*(1+1+1)))))))*l*m*x2*y2*y2 -
      ((1+1)*(1+(1+1)*((1+1)*(1+(1+1)*(1+(1+1)*((1+1)*(1+1)))))))*l*m*x2*x2*x2*x2 - ((1+1)*((1+1)*(1+(1+1)*(1+1))))*l*m*x1*y2*y2 -
      ((1+1)*(1+(1+1)*(1+(1+1)*(1+(1+1)*((1+1)*(1+1+1))))))*l*m*x1*x2*x2*x2 + ((1+1)*((1+1)*(1+(1+1)*((1+1)*(1+1)))))*l*m*x1*x1*x2*x2 +
      ((1+1)*((1+1)*((1+1)*((1+1)*((1+1)*(1+1))))))*l*m*x1*x1*x1*x2 + ((1+1)*((1+1)*(1+(1+1)*(1+1))))*l*m*x1*x1*x1*x1 +
      ((1+1)*(1+(1+1)*((1+1)*(1+(1+1)*(1+(1+1)*((1+1)*(1+1+1)))))))*l*m*m*x2*x2*y2 + ((1+1)*(1+(1+1)*(1+1+1)))*l*m*m*x1*x2*y2 -
      ((1+1)*((1+1)*((1+1)*(1+1))))*l*m*m*x1*x1*y2 - ((1+1)*((1+1)*(1+(1+1)*(1+1+1))))*l*m*m*m*y2*y2 - ((1+1)*(1+(1+1)*(1+1+1)))*l*m*m*m*x2*x2*x2 +
      ((1+1)*((1+1)*(1+(1+1)*(1+(1+1)*((1+1)*(1+1+1))))))*l*m*m*m*x1*x2*x2 + ((1+1)*((1+1)*(1+(1+1)*((1+1)*(1+(1+1)*(1+1))))))*l*m*m*m*x1*x1*x2 +
      ((1+1)*((1+1)*(1+(1+1)*(1+1))))*l*m*m*m*x1*x1*x1 + ((1+1)*((1+1)*(1+1+1)))*l*m*m*m*m*x2*y2 + ((1+1)*(1+1+1))*l*m*m*m*m*m*x2*x2 -
      (1+1)*l*m*m*m*m*m*m*y2 + ((1+1)*((1+1)*(1+(1+1)*(1+(1+1)*(1+(1+1)*(1+1+1))))))*l*l*x2*y2*y2 -
      (1+(1+1)*((1+1)*(1+(1+1)*(1+(1+1)*(1+(1+1)*((1+1)*(1+1)))))))*l*l*x2*x2*x2*x2 +
      ((1+1)*((1+1)*((1+1)*((1+1)*((1+1)*((1+1)*(1+1)))))))*l*l*x1*y2*y2 - (1+(1+1)*((1+1)*(1+(1+1)*((1+1)*(1+(1+1)*((1+1)*(1+1)))))))*l*l*x1*x2*x2*x2
      - (1+(1+1)*(1+(1+1)*(1+(1+1)*(1+(1+1)*(1+(1+1)*((1+1)*(1+1)))))))*l*l*x1*x1*x2*x2 -
      (1+(1+1)*((1+1)*((1+1)*((1+1)*((1+1)*(1+1))))))*l*l*x1*x1*x1*x2 - ((1+1)*(1+(1+1)*(1+1)))*l*l*x1*x1*x1*x1 +
      ((1+1)*(1+(1+1)*((1+1)*(1+(1+1)*(1+(1+1)*(1+1+1))))))*l*l*m*x2*x2*y2 + ((1+1)*(1+(1+1)*(1+(1+1)*(1+(1+1)*(1+1+1)))))*l*l*m*x1*x2*y2 +
      ((1+1)*((1+1)*(1+(1+1)*((1+1)*((1+1)*(1+1))))))*l*l*m*x1*x1*y2 - ((1+1)*((1+1)*(1+(1+1)*((1+1)*(1+(1+1)*(1+1+1))))))*l*l*m*m*y2*y2 -
      (1+(1+1)*(1+(1+1)*((1+1)*(1+(1+1)*(1+(1+1)*(1+1+1))))))*l*l*m*m*x2*x2*x2 -
      (1+(1+1)*((1+1)*(1+(1+1)*(1+(1+1)*(1+(1+1)*(1+(1+1)*(1+(1+1)*(1+1))))))))*l*l*m*m*x1*x2*x2 -
      (1+(1+1)*(1+(1+1)*(1+(1+1)*(1+(1+1)*(1+(1+1)*((1+1)*(1+(1+1)*(1+1))))))))*l*l*m*m*x1*x1*x2 -
      (1+(1+1)*(1+(1+1)*((1+1)*((1+1)*((1+1)*(1+1+1))))))*l*l*m*m*x1*x1*x1 + ((1+1)*(1+(1+1)*((1+1)*((1+1)*(1+(1+1)*((1+1)*(1+1)))))))*l*l*m*m*m*x2*y2
      + ((1+1)*(1+(1+1)*(1+(1+1)*((1+1)*((1+1)*(1+1))))))*l*l*m*m*m*x1*y2 + ((1+1)*(1+1+1))*l*l*m*m*m*m*x2*x2 - (1+1)*l*l*m*m*m*m*m*y2 -
      ((1+1)*(1+(1+1)*(1+(1+1)*((1+1)*(1+(1+1)*((1+1)*(1+(1+1)*(1+1))))))))*l*l*l*x2*x2*y2 -
      ((1+1)*(1+(1+1)*((1+1)*(1+(1+1)*(1+(1+1)*(1+(1+1)*(1+(1+1)*(1+1))))))))*l*l*l*x1*x2*y2 - ((1+1)*((1+1)*((1+1)*((1+1)*(1+1+1)))))*l*l*l*x1*x1*y2
      - ((1+1)*((1+1)*((1+1)*(1+(1+1)*(1+1)))))*l*l*l*m*y2*y2 + ((1+1)*((1+1)*(1+(1+1)*((1+1)*(1+(1+1)*(1+1))))))*l*l*l*m*x2*x2*x2 -
      ((1+1)*(1+(1+1)*((1+1)*(1+(1+1)*(1+(1+1)*(1+1))))))*l*l*l*m*x1*x2*x2 -
      ((1+1)*((1+1)*(1+(1+1)*(1+(1+1)*(1+(1+1)*(1+(1+1)*(1+1+1)))))))*l*l*l*m*x1*x1*x2 -
      ((1+1)*((1+1)*(1+(1+1)*((1+1)*(1+(1+1)*(1+1))))))*l*l*l*m*x1*x1*x1 + ((1+1)*(1+(1+1)*((1+1)*(1+(1+1)*((1+1)*((1+1)*(1+1)))))))*l*l*l*m*m*x2*y2 +
      ((1+1)*(1+(1+1)*(1+(1+1)*((1+1)*(1+1+1)))))*l*l*l*m*m*x1*y2 - ((1+1)*(1+(1+1)*(1+(1+1)*((1+1)*(1+(1+1)*((1+1)*(1+1+1)))))))*l*l*l*m*m*m*x2*x2 -
      ((1+1)*((1+1)*((1+1)*(1+(1+1)*((1+1)*(1+(1+1)*(1+1+1)))))))*l*l*l*m*m*m*x1*x2 - ((1+1)*((1+1)*((1+1)*((1+1)*((1+1)*(1+1))))))*l*l*l*m*m*m*x1*x1
      - (1+1)*l*l*l*m*m*m*m*y2 - ((1+1)*((1+1)*((1+1)*((1+1)*((1+1)*(1+1))))))*l*l*l*l*y2*y2 +
      (1+(1+1)*(1+(1+1)*((1+1)*((1+1)*(1+(1+1)*((1+1)*(1+1+1)))))))*l*l*l*l*x2*x2*x2 +
      (1+(1+1)*(1+(1+1)*(1+(1+1)*(1+(1+1)*((1+1)*((1+1)*((1+1)*(1+1+1))))))))*l*l*l*l*x1*x2*x2 +
      (1+(1+1)*(1+(1+1)*(1+(1+1)*((1+1)*(1+(1+1)*(1+(1+1)*(1+1)))))))*l*l*l*l*x1*x1*x2 + (1+(1+1)*(1+(1+1)*((1+1)*((1+1)*(1+1)))))*l*l*l*l*x1*x1*x1 -
      ((1+1)*((1+1)*(1+(1+1)*(1+(1+1)*(1+1)))))*l*l*l*l*m*x2*y2 - ((1+1)*(1+(1+1)*(1+(1+1)*(1+(1+1)*((1+1)*((1+1)*(1+1)))))))*l*l*l*l*m*x1*y2 +
      ((1+1)*(1+(1+1)*((1+1)*((1+1)*(1+(1+1)*(1+1+1))))))*l*l*l*l*m*m*x2*x2 +
      ((1+1)*(1+(1+1)*((1+1)*((1+1)*((1+1)*((1+1)*((1+1)*(1+1))))))))*l*l*l*l*m*m*x1*x2 +
      ((1+1)*(1+(1+1)*(1+(1+1)*(1+(1+1)*(1+(1+1)*(1+1+1))))))*l*l*l*l*m*m*x1*x1 - ((1+1)*((1+1)*((1+1)*(1+(1+1)*((1+1)*(1+1))))))*l*l*l*l*m*m*m*y2 +
      ((1+1)*((1+1)*((1+1)*((1+1)*(1+(1+1)*(1+(1+1)*(1+1)))))))*l*l*l*l*l*x2*y2 + ((1+1)*(1+(1+1)*(1+(1+1)*(1+1))))*l*l*l*l*l*x1*y2 +
      ((1+1)*((1+1)*(1+(1+1)*((1+1)*((1+1)*(1+1))))))*l*l*l*l*l*m*x2*x2 +
      ((1+1)*((1+1)*((1+1)*((1+1)*((1+1)*((1+1)*(1+(1+1)*(1+1))))))))*l*l*l*l*l*m*x1*x2 +
      ((1+1)*((1+1)*(1+(1+1)*(1+(1+1)*((1+1)*((1+1)*(1+1)))))))*l*l*l*l*l*m*x1*x1 - ((1+1)*((1+1)*((1+1)*(1+(1+1)*(1+1+1)))))*l*l*l*l*l*m*m*y2 +
      ((1+1)*((1+1)*(1+(1+1)*((1+1)*((1+1)*(1+(1+1)*(1+1)))))))*l*l*l*l*l*m*m*m*x2 +
      ((1+1)*((1+1)*(1+(1+1)*(1+(1+1)*((1+1)*(1+1))))))*l*l*l*l*l*m*m*m*x1 -
      ((1+1)*(1+(1+1)*(1+(1+1)*(1+(1+1)*((1+1)*((1+1)*(1+1+1)))))))*l*l*l*l*l*l*x2*x2 -
      ((1+1)*(1+(1+1)*((1+1)*(1+(1+1)*((1+1)*(1+(1+1)*(1+1)))))))*l*l*l*l*l*l*x1*x2 - ((1+1)*(1+(1+1)*((1+1)*((1+1)*(1+1+1)))))*l*l*l*l*l*l*x1*x1 +
      ((1+1)*(1+(1+1)*((1+1)*((1+1)*((1+1)*(1+1))))))*l*l*l*l*l*l*m*y2 - ((1+1)*(1+(1+1)*((1+1)*((1+1)*(1+1)))))*l*l*l*l*l*l*m*m*x2 -
      ((1+1)*(1+(1+1)*(1+(1+1)*(1+(1+1)*(1+1+1)))))*l*l*l*l*l*l*m*m*x1 + (1+1)*l*l*l*l*l*l*l*y2 -
      ((1+1)*((1+1)*(1+(1+1)*((1+1)*((1+1)*((1+1)*(1+1)))))))*l*l*l*l*l*l*l*m*x2 -
      ((1+1)*((1+1)*(1+(1+1)*(1+(1+1)*((1+1)*(1+1+1))))))*l*l*l*l*l*l*l*m*x1 - ((1+1)*((1+1)*((1+1)*((1+1)*(1+1)))))*l*l*l*l*l*l*l*m*m*m +
      (1+(1+1)*(1+(1+1)*((1+1)*((1+1)*(1+1+1)))))*l*l*l*l*l*l*l*l*x2 + ((1+1)*(1+(1+1)*(1+(1+1)*(1+1+1))))*l*l*l*l*l*l*l*l*x1 +
      (1+(1+1)*(1+1+1))*l*l*l*l*l*l*l*l*m*m + ((1+1)*((1+1)*((1+1)*((1+1)*(1+1)))))*l*l*l*l*l*l*l*l*l*m - ((1+1)*(1+1+1))*l*l*l*l*l*l*l*l*l*l) * k1 +
    (0 - ((1+1)*((1+1)*((1+1)*(1+(1+1)*(1+1)))))*x2*x2*y2*y2 + ((1+1)*((1+1)*((1+1)*(1+1))))*x2*x2*x2*x2*x2 +
      ((1+1)*((1+1)*(1+(1+1)*(1+1))))*x1*x2*y2*y2 + ((1+1)*(1+(1+1)*(1+(1+1)*(1+(1+1)*(1+1)))))*x1*x2*x2*x2*x2 +
      ((1+1)*((1+1)*((1+1)*((1+1)*(1+1)))))*x1*x1*y2*y2 + (1+(1+1)*((1+1)*((1+1)*(1+(1+1)*((1+1)*(1+1))))))*x1*x1*x2*x2*x2 +
      (1+(1+1)*((1+1)*(1+(1+1)*(1+1+1))))*x1*x1*x1*x2*x2 - x1*x1*x1*x1*x2 - x1*x1*x1*x1*x1 - ((1+1)*((1+1)*((1+1)*(1+(1+1)*(1+1)))))*m*y2*y2*y2 +
      ((1+1)*((1+1)*((1+1)*((1+1)*((1+1)*(1+1+1))))))*m*x2*x2*x2*y2 - ((1+1)*((1+1)*(1+(1+1)*((1+1)*(1+1)))))*m*x1*x2*x2*y2 -
      ((1+1)*(1+(1+1)*((1+1)*(1+(1+1)*(1+1)))))*m*x1*x1*x2*y2 - ((1+1)*(1+(1+1)*((1+1)*(1+1))))*m*x1*x1*x1*y2 +
      ((1+1)*((1+1)*((1+1)*(1+(1+1)*((1+1)*(1+1))))))*m*m*x2*y2*y2 - ((1+1)*((1+1)*(1+(1+1)*((1+1)*((1+1)*((1+1)*(1+1)))))))*m*m*m*x2*x2*y2 +
      ((1+1)*((1+1)*((1+1)*(1+1+1))))*m*m*m*m*y2*y2 + ((1+1)*(1+(1+1)*(1+(1+1)*((1+1)*(1+1+1)))))*m*m*m*m*x2*x2*x2 -
      ((1+1)*((1+1)*(1+1+1)))*m*m*m*m*m*x2*y2 - ((1+1)*(1+1+1))*m*m*m*m*m*m*x2*x2 + (1+1)*m*m*m*m*m*m*m*y2 -
      ((1+1)*((1+1)*((1+1)*(1+(1+1)*(1+(1+1)*(1+1))))))*l*y2*y2*y2 - ((1+1)*(1+(1+1)*(1+(1+1)*((1+1)*((1+1)*((1+1)*(1+1)))))))*l*x2*x2*x2*y2 -
      ((1+1)*(1+(1+1)*(1+(1+1)*(1+(1+1)*(1+(1+1)*(1+1+1))))))*l*x1*x2*x2*y2 - ((1+1)*((1+1)*(1+(1+1)*(1+(1+1)*(1+1+1)))))*l*x1*x1*x2*y2 -
      ((1+1)*(1+1))*l*x1*x1*x1*y2 + ((1+1)*((1+1)*((1+1)*((1+1)*((1+1)*((1+1)*(1+1)))))))*l*m*x2*y2*y2 - (1+1)*l*m*x2*x2*x2*x2 +
      ((1+1)*((1+1)*(1+(1+1)*(1+1+1))))*l*m*x1*y2*y2 + ((1+1)*((1+1)*(1+1)))*l*m*x1*x2*x2*x2 + ((1+1)*((1+1)*((1+1)*(1+1+1))))*l*m*x1*x1*x2*x2 +
      ((1+1)*((1+1)*(1+1)))*l*m*x1*x1*x1*x2 - (1+1)*l*m*x1*x1*x1*x1 - ((1+1)*((1+1)*(1+(1+1)*((1+1)*((1+1)*((1+1)*(1+1)))))))*l*m*m*x2*x2*y2 +
      ((1+1)*((1+1)*((1+1)*(1+1+1))))*l*m*m*m*y2*y2 + ((1+1)*(1+(1+1)*(1+(1+1)*((1+1)*(1+1+1)))))*l*m*m*m*x2*x2*x2 -
      ((1+1)*((1+1)*(1+1+1)))*l*m*m*m*m*x2*y2 - ((1+1)*(1+1+1))*l*m*m*m*m*m*x2*x2 + (1+1)*l*m*m*m*m*m*m*y2 +
      ((1+1)*((1+1)*((1+1)*(1+(1+1)*((1+1)*((1+1)*((1+1)*(1+1))))))))*l*l*x2*y2*y2 +
      ((1+1)*(1+(1+1)*(1+(1+1)*(1+(1+1)*(1+(1+1)*(1+1+1))))))*l*l*x2*x2*x2*x2 -
      ((1+1)*((1+1)*(1+(1+1)*((1+1)*((1+1)*(1+(1+1)*(1+1+1)))))))*l*l*m*x2*x2*y2 + ((1+1)*((1+1)*((1+1)*(1+1+1))))*l*l*m*m*y2*y2 +
      ((1+1)*(1+(1+1)*(1+(1+1)*((1+1)*(1+1+1)))))*l*l*m*m*x2*x2*x2 - ((1+1)*((1+1)*(1+1+1)))*l*l*m*m*m*x2*y2 - ((1+1)*(1+1+1))*l*l*m*m*m*m*x2*x2 +
      (1+1)*l*l*m*m*m*m*m*y2 - ((1+1)*((1+1)*((1+1)*(1+(1+1)*(1+(1+1)*(1+(1+1)*((1+1)*(1+1))))))))*l*l*l*x2*x2*y2 +
      ((1+1)*((1+1)*(1+(1+1)*((1+1)*(1+(1+1)*(1+1+1))))))*l*l*l*m*y2*y2 + ((1+1)*(1+(1+1)*(1+(1+1)*(1+(1+1)*(1+(1+1)*(1+1+1))))))*l*l*l*m*x2*x2*x2 -
      ((1+1)*((1+1)*(1+1+1)))*l*l*l*m*m*x2*y2 - ((1+1)*(1+1+1))*l*l*l*m*m*m*x2*x2 + (1+1)*l*l*l*m*m*m*m*y2 +
      ((1+1)*((1+1)*(1+(1+1)*(1+1+1))))*l*l*l*l*y2*y2 + ((1+1)*((1+1)*(1+(1+1)*(1+(1+1)*((1+1)*(1+1+1))))))*l*l*l*l*x2*x2*x2 -
      ((1+1)*(1+(1+1)*(1+(1+1)*(1+(1+1)*((1+1)*(1+(1+1)*(1+1)))))))*l*l*l*l*m*x2*y2 - ((1+1)*(1+1+1))*l*l*l*l*m*m*x2*x2 + (1+1)*l*l*l*l*m*m*m*y2 -
      ((1+1)*(1+(1+1)*((1+1)*(1+1))))*l*l*l*l*l*x2*y2 + ((1+1)*(1+(1+1)*((1+1)*(1+(1+1)*(1+1)))))*l*l*l*l*l*m*x2*x2 + (1+1)*l*l*l*l*l*m*m*y2 -
      ((1+1)*((1+1)*(1+1+1)))*l*l*l*l*l*l*x2*x2 + ((1+1)*((1+1)*(1+(1+1)*((1+1)*(1+1)))))*l*l*l*l*l*l*m*y2 +
      ((1+1)*((1+1)*((1+1)*(1+1))))*l*l*l*l*l*l*l*y2 - ((1+1)*((1+1)*((1+1)*(1+1+1))))*l*l*l*l*l*l*l*m*x2 - (1+(1+1)*((1+1)*(1+1)))*l*l*l*l*l*l*l*l*x2
      + (1+1)*l*l*l*l*l*l*l*l*l*m + l*l*l*l*l*l*l*l*l*l) * k2 x12 +
    (0 - ((1+1)*((1+1)*((1+1)*(1+1))))*x2*y2*y2*y2 + ((1+1)*(1+(1+1)*(1+(1+1)*((1+1)*((1+1)*(1+1))))))*x2*x2*x2*x2*y2 -
      ((1+1)*((1+1)*(1+1)))*x1*y2*y2*y2 + ((1+1)*((1+1)*(1+(1+1)*((1+1)*((1+1)*(1+1))))))*x1*x2*x2*x2*y2 +
      ((1+1)*((1+1)*((1+1)*((1+1)*(1+1+1)))))*x1*x1*x2*x2*y2 - ((1+1)*(1+1))*x1*x1*x1*x2*y2 - (1+1)*x1*x1*x1*x1*y2 -
      ((1+1)*((1+1)*((1+1)*(1+(1+1)*((1+1)*(1+1))))))*m*x2*x2*y2*y2 - ((1+1)*((1+1)*(1+(1+1)*(1+(1+1)*(1+1+1)))))*m*x2*x2*x2*x2*x2 -
      ((1+1)*((1+1)*((1+1)*(1+1+1))))*m*x1*x2*y2*y2 - ((1+1)*((1+1)*(1+(1+1)*((1+1)*(1+1)))))*m*x1*x2*x2*x2*x2 -
      ((1+1)*(1+(1+1)*((1+1)*(1+1))))*m*x1*x1*x2*x2*x2 + ((1+1)*(1+1+1))*m*x1*x1*x1*x2*x2 - ((1+1)*((1+1)*((1+1)*((1+1)*(1+1)))))*m*m*y2*y2*y2 +
      ((1+1)*((1+1)*(1+(1+1)*(1+(1+1)*((1+1)*(1+1+1))))))*m*m*x2*x2*x2*y2 + ((1+1)*((1+1)*((1+1)*(1+(1+1)*((1+1)*(1+1))))))*m*m*m*x2*y2*y2 -
      ((1+1)*((1+1)*(1+(1+1)*((1+1)*((1+1)*((1+1)*(1+1)))))))*m*m*m*m*x2*x2*y2 + ((1+1)*((1+1)*((1+1)*(1+1+1))))*m*m*m*m*m*y2*y2 +
      ((1+1)*(1+(1+1)*(1+(1+1)*((1+1)*(1+1+1)))))*m*m*m*m*m*x2*x2*x2 - ((1+1)*((1+1)*(1+1+1)))*m*m*m*m*m*m*x2*y2 - ((1+1)*(1+1+1))*m*m*m*m*m*m*m*x2*x2
      + (1+1)*m*m*m*m*m*m*m*m*y2) * e2.
  Proof. ring. Qed.
End Identities.
