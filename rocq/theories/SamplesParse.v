(** Descriptions used in examples. *)
From Coq Require Import Reals String List ZArith Bool.
From Verif Require Import Num NumR Vec CoordSys Surface Medium Obscuration Trig Optic PyObj Parse ParseSpec.
Import ListNotations.
Local Open Scope list_scope.
Local Open Scope string_scope.

Section Samples.
  Context {T : Type}.
  Definition plane_d : yaml T := YMap [("type", YStr "Plane")].
  (** A ring of clear sky and its blocking counterpart. *)
  Definition ring_d (t : string) : dict T :=
    [("outer", YInt 4); ("type", YStr t); ("inner", YInt 2); ("y", YInt 1)].
  Definition mask_d : dict T :=
    [("type", YStr "ObscUnion");
     ("items", YSeq [YMap (ring_d "ClearAnnulus");
                     YMap [("type", YStr "ObscNegation"); ("original", YMap (ring_d "ObscAnnulus"))]])].
  Definition sum_d : dict T :=
    [("type", YStr "Sum");
     ("items", YSeq [YMap [("type", YStr "Quadric"); ("R", YInt 10); ("conic", YInt (-1))];
                     YMap [("type", YStr "Asphere"); ("R", YInt 10); ("conic", YInt 0); ("coefs", YSeq [YInt 1])]])].
  Definition surf_d (t : string) : dict T := [("type", YStr t); ("R", YInt 3)].
  Definition face_d (t name : string) (z : Z) (s : dict T) : dict T :=
    [("type", YStr t); ("name", YStr name); ("coordSys", YMap [("z", YInt z)]); ("surface", YMap s)].
  Definition lens_d : dict T :=
    [("type", YStr "Lens"); ("name", YStr "L1"); ("medium", YInt 2);
     ("coordSys", YMap [("z", YInt 3)]);
     ("items", YSeq [YMap (face_d "RefractiveInterface" "L1_entrance" 0 (surf_d "Sphere"));
                     YMap (face_d "RefractiveInterface" "L1_exit" 1 (surf_d "Paraboloid"))])].
  (** A mirror and a lens in a shifted, turned assembly with a stop. *)
  Definition scope_d : dict T :=
    [("type", YStr "CompoundOptic"); ("name", YStr "scope");
     ("coordSys", YMap [("x", YInt 1); ("rotZ", YInt 1); ("shift", YSeq [YInt 0; YInt 2; YInt 0])]);
     ("stopSurface", YMap (face_d "Interface" "stop" 7 [("type", YStr "Plane")]));
     ("items", YSeq [YMap (("obscuration", YMap mask_d) :: face_d "Mirror" "M1" 5 sum_d);
                     YMap (face_d "Detector" "D" 9 [("type", YStr "Plane")])])].
  Definition masked_d (t : string) : dict T :=
    [("type", YStr t); ("obscuration", YMap (ring_d "ObscAnnulus")); ("surface", plane_d); ("medium", YInt 1);
     ("items", YSeq [YMap (face_d "Baffle" "A" 0 [("type", YStr "Plane")]);
                     YMap (face_d "Baffle" "B" 1 [("type", YStr "Plane")])])].
End Samples.
