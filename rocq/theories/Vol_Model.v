(* The volume two overlapping spheres share, over the reals.
   Models SphereSphereConstraint::computeOverlapVolume, /repo/rigidbody3d/Constraints/SphereSphereConstraint.cpp:356-384. *)
From Coq Require Import Reals Bool.
From Verif Require Import Ccd_Model Lin_Model.
Open Scope R_scope.

(* overlapVolumeGivenDistanceAndRadii, SphereSphereConstraint.cpp:356-360 *)
Definition lens_volume (d r R : R) : Rdefinitions.R :=
  PI * (R + r - d) * (R + r - d) * (d * d + 2 * d * r - 3 * r * r + 2 * d * R + 6 * r * R - 3 * R * R) / (12 * d).
(* SphereSphereConstraint.cpp:362-384 *)
Definition overlap_volume (x0 x1 : v3) (r0 r1 : R) : R :=
  let d := sqrt (dot3 (sub3 x0 x1) (sub3 x0 x1)) in
  if Rltb (r0 + r1) d then 0
  else let r := Rmin r0 r1 in
       let R := Rmax r0 r1 in
       if negb (Rltb R (d + r)) then 4 * PI * r * r * r / 3 else lens_volume d r R.
