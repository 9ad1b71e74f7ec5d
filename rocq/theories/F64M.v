(** 64-bit floats, as far as src/timeouts.rs, src/console.rs and src/options.rs use them: the
    finite ones are rationals, and each operation rounds its exact result to the nearest
    float. *)
From Coq Require Import ZArith NArith QArith Qround Qpower Bool.
Open Scope Q_scope.

Definition pow2 (e : Z) : Q := (2 # 1) ^ e.

(** To the nearest integer, an even one if two are as near. *)
Definition round_even (q : Q) : Z :=
  let f := Qfloor q in
  match Qcompare (q - inject_Z f) (1 # 2) with
  | Lt => f
  | Gt => (f + 1)%Z
  | Eq => if Z.even f then f else (f + 1)%Z
  end.

(** The exponent of the leading binary digit of a positive number. *)
Definition flog2 (q : Q) : Z :=
  let k := (Z.log2 (Qnum q) - Z.log2 (Zpos (Qden q)))%Z in
  if Qle_bool (pow2 k) q then k else (k - 1)%Z.

(** The exponent of the last of the 53 binary digits, which is not below that of the least
    subnormal number. *)
Definition last_digit (q : Q) : Z := Z.max (flog2 q - 52) (-1074).

Definition rnd_pos (q : Q) : Q :=
  let e := last_digit q in inject_Z (round_even (q / pow2 e)) * pow2 e.

(** IEEE 754 round to nearest, ties to even, of Rust's [f64].  Overflow to infinity is left
    out: numbers of 2^1024 and more stay finite (all uses come to [from_secs_f64], where both
    are panics). *)
Definition rnd64 (q : Q) : Q :=
  match Qcompare 0 q with
  | Eq => 0
  | Lt => rnd_pos q
  | Gt => - rnd_pos (- q)
  end.

(** All [f64] values; minus zero is not told apart from zero. *)
Inductive f64 := Fin (q : Q) | Inf (negative : bool) | NaN.

Section Ops.
Variable rnd : Q -> Q.

Definition mul64 (a b : f64) : f64 :=
  match a, b with
  | Fin p, Fin q => Fin (rnd (p * q))
  | Fin p, Inf n | Inf n, Fin p =>
      match Qcompare 0 p with Eq => NaN | Lt => Inf n | Gt => Inf (negb n) end
  | Inf n, Inf n' => Inf (xorb n n')
  | _, _ => NaN
  end.
End Ops.

(** [f64::ceil]; the result needs no rounding: a float above 2^53 is an integer. *)
Definition ceil64 (a : f64) : f64 := match a with Fin q => Fin (inject_Z (Qceiling q)) | _ => a end.
