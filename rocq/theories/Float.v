(** Rounding to IEEE binary32, to nearest with ties to even, on rational
    numbers: the arithmetic of the float32 tensors of the library. Overflow is
    not modelled. FloatFacts.v shows that this is the rounding of the Flocq
    library. *)
From Coq Require Import ZArith QArith Qround Qabs Bool.
Local Open Scope Z_scope.

Definition pow2 (e : Z) : Q :=
  match e with
  | Z0 => 1%Q
  | Zpos p => inject_Z (2 ^ Zpos p)
  | Zneg p => 1 # (2 ^ p)
  end.
(** The magnitude of a number other than zero: the [e] with
    [2^(e-1) <= |x| < 2^e]. *)
Definition qmag (x : Q) : Z :=
  let k := Z.log2 (Z.abs (Qnum x)) - Z.log2 (Zpos (Qden x)) in
  if Qle_bool (pow2 k) (Qabs x) then k + 1 else k.
(** The nearest integer, the even one of two. *)
Definition qnearest (x : Q) : Z :=
  let n := Qfloor x in
  match ((x - inject_Z n) ?= (1 # 2))%Q with
  | Lt => n
  | Gt => n + 1
  | Eq => if Z.even n then n else n + 1
  end.
Definition f32 (x : Q) : Q :=
  if Z.eqb (Qnum x) 0 then 0%Q
  else let e := Z.max (qmag x - 24) (-149) in
       Qred (inject_Z (qnearest (x * pow2 (- e))) * pow2 e).
