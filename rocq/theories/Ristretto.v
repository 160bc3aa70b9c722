(** pkg/ristretto/ristretto.go: the ristretto255 element, transcribed over the field
    and point operations of filippo.io/edwards25519 (Fp.v, EdPoint.v).  Definitions only. *)
From Coq Require Import ZArith Znumtheory Lia List Bool String Ring Field.
From Coq.Strings Require Import Byte.
From Verif Require Import ZField Primes Bytes Scalar Go Fp Edwards EdPoint.
Import ListNotations.
Local Open Scope Z_scope.

(** field.Element.SetBytes (dependency): 32 bytes, little endian, the top bit ignored. *)
Definition fe_set_bytes (b : list byte) : Fp := pof (le_val b mod 2 ^ 255).
(** field.Element.Bytes (dependency): the canonical 32 bytes. *)
Definition fe_bytes (x : Fp) : list byte := le_bytes 32 (fz x).
(** field.Element.Select(a, b, cond): a if cond = 1, else b. *)
Definition fe_select (a b : Fp) (c : bool) : Fp := if c then a else b.

(** ristretto.go:33-38 d *)
Definition r_d : Fp := fe_set_bytes
  [xa3; x78; x59; x13; xca; x4d; xeb; x75; xab; xd8; x41; x41; x4d; x0a; x70; x00;
   x98; xe8; x79; x77; x79; x40; xc7; x8c; x73; xfe; x6f; x2b; xee; x6c; x03; x52].
(** ristretto.go:39-44 sqrtM1 *)
Definition r_sqrtM1 : Fp := fe_set_bytes
  [xb0; xa0; x0e; x4a; x27; x1b; xee; xc4; x78; xe4; x2f; xad; x06; x18; x43; x2f;
   xa7; xd7; xfb; x3d; x99; x00; x4d; x2b; x0b; xdf; xc1; x4f; x80; x24; x83; x2b].
(** ristretto.go:45-50 sqrtADMinusOne *)
Definition r_sqrtADMinusOne : Fp := fe_set_bytes
  [x1b; x2e; x7b; x49; xa0; xf6; x97; x7e; xbd; x54; x78; x1b; x0c; x8e; x9d; xaf;
   xfd; xd1; xf5; x31; xc9; xfc; x3c; x0f; xac; x48; x83; x2b; xbf; x31; x69; x37].
(** ristretto.go:51-56 invSqrtAMinusD *)
Definition r_invSqrtAMinusD : Fp := fe_set_bytes
  [xea; x40; x5d; x80; xaa; xfd; xc8; x99; xbe; x72; x41; x5a; x17; x16; x2f; x9d;
   x40; xd8; x01; xfe; x91; x7b; xc2; x16; xa2; xfc; xaf; xcf; x05; x89; x6c; x78].
(** ristretto.go:57-62 oneMinusDSQ *)
Definition r_oneMinusDSQ : Fp := fe_set_bytes
  [x76; xc1; x5f; x94; xc1; x09; x7c; xe2; x0f; x35; x5e; xcd; x38; xa1; x81; x2c;
   xe4; xdf; x70; xbe; xdd; xab; x94; x99; xd7; xe0; xb3; xb2; xa8; x72; x90; x02].
(** ristretto.go:63-68 dMinusOneSQ *)
Definition r_dMinusOneSQ : Fp := fe_set_bytes
  [x20; x4d; xed; x44; xaa; x5a; xad; x31; x99; x19; x1e; xb0; x2c; x4a; x9e; xd2;
   xeb; x4e; x9b; x52; x2f; xd3; xdc; x4c; x41; x22; x6c; xf6; x7a; xb3; x68; x59].

Local Open Scope Fp_scope.

(** ristretto.go:71-76 *)
Definition r_two : Fp := 1 + 1.
Definition r_minusOne : Fp := 0 - 1.

(** ristretto.go:106-121 Equal(..) == 1 *)
Definition r_Equal (e ee : xpt) : bool :=
  let out := feqb (xX e * xY ee) (xY e * xX ee) in
  (out || feqb (xY e * xY ee) (xX e * xX ee))%bool.

(** Point.SetExtendedCoordinates (dependency): accepted iff -X^2+Y^2 = Z^2+dT^2 and XY = TZ. *)
Definition SetExtendedCoordinates (X Y Z T : Fp) : option xpt :=
  if (feqb (Y * Y - X * X) (ed_d * (T * T) + Z * Z) && feqb (X * Y) (T * Z))%bool
  then Some (mkX X Y Z T) else None.

(** ristretto.go:146-208 mapToPoint *)
Definition mapToPoint (t : Fp) : outcome xpt :=
  let r := r_sqrtM1 * (t * t) in
  let u := (r + 1) * r_oneMinusDSQ in
  let c := r_minusOne in
  let rPlusD := r + r_d in
  let v := (c - r * r_d) * rPlusD in
  let '(s, wasSquare) := sqrt_ratio u v in
  let sPrime := - fabs (s * t) in
  let s := fe_select s sPrime wasSquare in
  let c := fe_select c r wasSquare in
  let N := c * (r - 1) in
  let N := N * r_dMinusOneSQ - v in
  let s2 := s * s in
  let w0 := (s * v) + (s * v) in
  let w1 := N * r_sqrtADMinusOne in
  let w2 := 1 - s2 in
  let w3 := 1 + s2 in
  match SetExtendedCoordinates (w0 * w3) (w2 * w1) (w1 * w3) (w0 * w2) with
  | Some p => Ret p
  | None => Panics "ristretto: internal error: MAP generated invalid coordinates"
  end.

(** ristretto.go:127-143 SetUniformBytes *)
Definition r_SetUniformBytes (b : list byte) : outcome xpt :=
  if negb (Nat.eqb (List.length b) 64) then Fail "ristretto: SetUniformBytes input is not 64 bytes long" else
  obind (mapToPoint (fe_set_bytes (firstn 32 b))) (fun point1 =>
  obind (mapToPoint (fe_set_bytes (skipn 32 b))) (fun point2 =>
  Ret (xadd point1 point2))).

(** ristretto.go:217-276 bytes: the field element that is encoded. *)
Definition r_encode (e : xpt) : Fp :=
  let X := xX e in let Y := xY e in let Z := xZ e in let T := xT e in
  let u1 := (Z + Y) * (Z - Y) in
  let u2 := X * Y in
  let '(invSqrt, _) := sqrt_ratio 1 (u2 * u2 * u1) in
  let den1 := invSqrt * u1 in
  let den2 := invSqrt * u2 in
  let zInv := (den1 * den2) * T in
  let ix0 := X * r_sqrtM1 in
  let iy0 := Y * r_sqrtM1 in
  let enchantedDenominator := den1 * r_invSqrtAMinusD in
  let rotate := is_neg (T * zInv) in
  let x := fe_select iy0 X rotate in
  let y := fe_select ix0 Y rotate in
  let z := Z in
  let denInv := fe_select enchantedDenominator den2 rotate in
  let isNegative := is_neg (x * zInv) in
  let y := fe_select (- y) y isNegative in
  fabs ((z - y) * denInv).

(** ristretto.go:211-215 Bytes *)
Definition r_Bytes (e : xpt) : list byte := fe_bytes (r_encode e).

(** ristretto.go:283-351 SetCanonicalBytes: the new value of the receiver, an error, or the panic. *)
Definition r_SetCanonicalBytes (b : list byte) : outcome xpt :=
  if negb (Nat.eqb (List.length b) 32) then Fail "ristretto: invalid element encoding" else
  let s := fe_set_bytes b in
  if negb (bytes_eqb (fe_bytes s) b) then Fail "ristretto: invalid element encoding" else
  if is_neg s then Fail "ristretto: invalid element encoding" else
  let sSqr := s * s in
  let u1 := 1 - sSqr in
  let u2 := 1 + sSqr in
  let u2Sqr := u2 * u2 in
  let v := - (u1 * u1 * r_d) - u2Sqr in
  let '(invSqrt, wasSquare) := sqrt_ratio 1 (v * u2Sqr) in
  let denX := invSqrt * u2 in
  let denY := invSqrt * denX * v in
  let X := fabs (r_two * s * denX) in
  let Y := u1 * denY in
  let Z := 1 in
  let T := X * Y in
  if (negb wasSquare || is_neg T || feqb Y 0)%bool then Fail "ristretto: invalid element encoding" else
  match SetExtendedCoordinates X Y Z T with
  | Some p => Ret p
  | None => Panics "ristretto: internal error: DECODE generated invalid coordinates"
  end.

(** Point.Bytes (dependency): y = Y/Z with the sign of x = X/Z in the top bit. *)
Definition point_bytes (p : xpt) : list byte :=
  let zInv := finv (xZ p) in
  let x := xX p * zInv in
  let y := xY p * zInv in
  le_bytes 32 (fz y + (if is_neg x then 2 ^ 255 else 0))%Z.

(** ristretto.go:453-458: the scalar 8^{-1} mod q. *)
Definition eightInv_bytes : list byte :=
  [x79; x2f; xdc; xe2; x29; xe5; x06; x61; xd0; xda; x1c; x7d; xb3; x9d; xd3; x07;
   x00; x00; x00; x00; x00; x00; x00; x00; x00; x00; x00; x00; x00; x00; x00; x06].

(** ristretto.go:448-464 BytesEd25519.  The error of SetCanonicalBytes is ignored (it cannot happen). *)
Definition r_BytesEd25519 (e : xpt) : list byte :=
  let eightInv := match scalar_set_canonical eightInv_bytes with Some s => s | None => 0%Fq end in
  let p := xmul 8 e in
  let p := xmul (fz eightInv) p in
  point_bytes p.

(** ristretto.go:354-363 ScalarBaseMult, ScalarMult *)
Definition r_ScalarMult (s : Fq) (p : xpt) : xpt := xmul (fz s) p.
Definition r_ScalarBaseMult (s : Fq) : xpt := r_ScalarMult s xbase.
(** ristretto.go:405-420 Add, Subtract, Negate *)
Definition r_Add (p r : xpt) : xpt := xadd p r.
Definition r_Negate (p : xpt) : xpt := xneg p.
Definition r_Subtract (p r : xpt) : xpt := xadd p (xneg r).
