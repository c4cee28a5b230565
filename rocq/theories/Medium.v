(** Media (src/medium.cpp) and coatings (src/coating.cpp). *)
From Coq Require Import List ZArith.
From Verif Require Import Num.
Import ListNotations.

Inductive medium (T : Type) :=
| ConstM (n : T)                                   (* src/medium.cpp:24-32 *)
| TableM (args vals : list T)                      (* src/medium.cpp:72-76 *)
| SellmeierM (B1 B2 B3 C1 C2 C3 : T)               (* src/medium.cpp:136-141 *)
| SumitaM (A0 A1 A2 A3 A4 A5 : T)                  (* src/medium.cpp:177-182 *)
| AirM (pressure temperature h2o : T).             (* src/medium.cpp:230-233 *)
Arguments ConstM {T}. Arguments TableM {T}. Arguments SellmeierM {T}.
Arguments SumitaM {T}. Arguments AirM {T}.

Section Medium.
  Context {T : Type} {NT : Num T}.
  Local Open Scope num_scope.

  (** The linear search of TableMedium::getN (src/medium.cpp:95-99): the value
      of upperIdx when the loop stops, starting at [i] with [k] steps left. *)
  Fixpoint table_search (args : list T) (w : T) (i k : nat) : nat :=
    match k with
    | O => i
    | S k => match nth_error args i with
             | Some a => if w <? a then i else table_search args w (S i) k
             | None => i
             end
    end.
  (** TableMedium::getN (src/medium.cpp:89-105).  None: the code reads outside
      the arrays (undefined behaviour). *)
  Definition table_getN (args vals : list T) (w : T) : option T :=
    let size := length args in
    match nth_error args 0, nth_error args (size - 1) with
    | Some a0, Some aN =>
        if w <? a0 then Some nnan
        else if aN <? w then Some nnan
        else
          let u := table_search args w 1 (size - 1) in
          match nth_error args (u - 1), nth_error args u,
                nth_error vals (u - 1), nth_error vals u with
          | Some al, Some au, Some vl, Some vu =>
              Some ((w - al) * (vu - vl) / (au - al) + vl)
          | _, _, _, _ => None
          end
    | _, _ => None
    end.

  (** SellmeierMedium::getN (src/medium.cpp:145-149). *)
  Definition sellmeier_getN (B1 B2 B3 C1 C2 C3 w : T) : T :=
    let x := w * w * nofZ 1000000000000 in
    nsqrt (n1 + B1 * x / (x - C1) + B2 * x / (x - C2) + B3 * x / (x - C3)).
  (** SumitaMedium::getN (src/medium.cpp:186-191). *)
  Definition sumita_getN (A0 A1 A2 A3 A4 A5 w : T) : T :=
    let x := w * w * nofZ 1000000000000 in
    let y := n1 / x in
    nsqrt (A0 + A1 * x + y * (A2 + y * (A3 + y * (A4 + y * A5)))).
  (** Air::Air, Air::getN (src/medium.cpp:230-245). *)
  Definition air_getN (pressure temperature h2o w : T) : T :=
    let P := pressure * nfrac 750061683 100000000 in
    let Tc := temperature - nfrac 27315 100 in
    let W := h2o * nfrac 750061683 100000000 in
    let sig2 := nfrac 1 1000000000000 / (w * w) in
    let n_1 := (nfrac 64328 1000 + nfrac 294981 10 / (nofZ 146 - sig2)
                + nfrac 2554 10 / (nofZ 41 - sig2)) * nfrac 1 1000000 in
    let n_1 := n_1 * (P * (n1 + (nfrac 1049 1000 - nfrac 157 10000 * Tc) * nfrac 1 1000000 * P)
                        / (nfrac 720883 1000 * (n1 + nfrac 3661 1000000 * Tc))) in
    let n_1 := n_1 - (nfrac 624 10000 - nfrac 680 1000000 * sig2)
                       / (n1 + nfrac 3661 1000000 * Tc) * W * nfrac 1 1000000 in
    n1 + n_1.

  (** Medium::getN, dispatched.  An out-of-bounds read of a table is NaN here. *)
  Definition getN (m : medium T) (w : T) : T :=
    match m with
    | ConstM n => n
    | TableM args vals => match table_getN args vals w with Some n => n | None => nnan end
    | SellmeierM B1 B2 B3 C1 C2 C3 => sellmeier_getN B1 B2 B3 C1 C2 C3 w
    | SumitaM A0 A1 A2 A3 A4 A5 => sumita_getN A0 A1 A2 A3 A4 A5 w
    | AirM p t h => air_getN p t h w
    end.

  (** SimpleCoating, the only coating class (src/coating.cpp:22-39). *)
  Record coating := SimpleCoating { reflectivity : T; transmissivity : T }.
  (** getReflect, getTransmit, getCoefs (src/coating.cpp:28-39). *)
  Definition getReflect (c : coating) (wavelength cosInc : T) : T := reflectivity c.
  Definition getTransmit (c : coating) (wavelength cosInc : T) : T := transmissivity c.
  Definition getCoefs (c : coating) (wavelength cosInc : T) : T * T :=
    (reflectivity c, transmissivity c).
End Medium.
Arguments coating T : clear implicits.
