(** The vocabulary of C98. *)
From Coq Require Import ZArith.
Local Open Scope Z_scope.

(** The indices of a Zernike polynomial: radial order [n], azimuthal index [m]. *)
Definition zernike_index (n m : Z) : Prop := 0 <= n /\ Z.abs m <= n /\ Z.Even (n - m).
(** The number of polynomials of radial order below [n]. *)
Definition before (n : Z) : Z := n * (n + 1) / 2.
