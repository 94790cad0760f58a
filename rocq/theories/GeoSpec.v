(** Specification for the geodetic conversions, independent of how the code computes
    them: the ellipsoid of revolution of WGS 84, its outward normal and
    the directions north and east. *)
From Coq Require Import Reals.
From Verif Require Import RotModel RotSpec GeoModel.
Local Open Scope R_scope.

(** Semi-axes in metres; the polar one to a micrometre *)
Definition equatorial : R := 6378137.
Definition polar : R := 6356752 + 314245 / 1000000.
Definition on_ellipsoid (p : vec) : Prop := (vx p * vx p + vy p * vy p) / (equatorial * equatorial) + vz p * vz p / (polar * polar) = 1.
(** The gradient of the ellipsoid's equation *)
Definition gradient (p : vec) : vec := V (vx p / (equatorial * equatorial)) (vy p / (equatorial * equatorial)) (vz p / (polar * polar)).
(** The unit vector with the given latitude and longitude *)
Definition zenith (l : vec) : vec := V (cos (vx l) * cos (vy l)) (cos (vx l) * sin (vy l)) (sin (vx l)).
Definition east (l : vec) : vec := V (- sin (vy l)) (cos (vy l)) 0.
Definition north (l : vec) : vec := V (- sin (vx l) * cos (vy l)) (- sin (vx l) * sin (vy l)) (cos (vx l)).
(** [p] lies at height [h] above the point of the ellipsoid whose outward normal has the
    latitude and longitude of [l] *)
Definition geodetic (l p : vec) : Prop :=
  exists s m, on_ellipsoid s /\ 0 < m /\ gradient s = vscale m (zenith l) /\ p = vadd s (vscale (vz l) (zenith l)).
Definition latitude (a : R) : Prop := - PI / 2 <= a <= PI / 2.
Definition longitude (a : R) : Prop := - PI < a <= PI.
