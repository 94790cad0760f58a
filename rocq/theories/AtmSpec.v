(** What atmospheric delays and the time of transmission should be. *)
From Coq Require Import ZArith Reals.
From Verif Require Import RotModel RotSpec OrbModel OrbSpec.
Local Open Scope R_scope.

(** IS-GPS-200 20.3.3.5.2.5 with the coefficients of 1 January 2004: receiver in semicircles, [gps] the GPS time of week in seconds,
    [delay] in metres.  [local] is the local time, within a day. *)
Definition poly (a b c d x : R) : R := a + b * x + c * x ^ 2 + d * x ^ 3.
Definition within_day (local raw : R) : Prop := 0 <= local < 86400 /\ exists days : Z, raw = local + IZR days * 86400.
Definition klobuchar (gps lat lon az el delay : R) : Prop :=
  exists psi phi lam phm local amp per x,
    psi = 137 / 10 ^ 4 / (el + 11 / 100) - 22 / 1000 /\
    phi = Rmin (416 / 1000) (Rmax (- (416 / 1000)) (lat + psi * cos az)) /\
    lam = lon + psi * sin az / cos (phi * PI) /\
    phm = phi + 64 / 1000 * cos ((lam - 1617 / 1000) * PI) /\
    within_day local (43200 * lam + gps) /\
    amp = Rmax 0 (poly (1118 / 10 ^ 11) (- (7451 / 10 ^ 12)) (- (5961 / 10 ^ 11)) (1192 / 10 ^ 10) phm) /\
    per = Rmax 72000 (poly 116700 (-229400) (-131100) 1049000 phm) /\
    x = 2 * PI * (local - 50400) / per /\
    delay = light * (1 + 16 * (53 / 100 - el) ^ 3) * (5 / 10 ^ 9 + (if Rle_dec (Rabs x) (157 / 100) then amp * (1 - x ^ 2 / 2 + x ^ 4 / 24) else 0)).

(** The signal that arrives at [t] at the receiver [rec] left the satellite, which moves as [P], at about [s]: the Earth turns while it travels *)
Definition travel (P : R -> vec) (rec : vec) (s : R) : R :=
  (dist (P s) rec + earth_rate * (vx (P s) * vy rec - vy (P s) * vx rec) / light) / light.
Definition miss (P : R -> vec) (rec : vec) (t s : R) : R := Rabs (t - s - travel P rec s).
(** A satellite slower than [v]; subtraction of a duration from a time to within [eps] *)
Definition slower (v : R) (P W : R -> vec) : Prop := (forall a b, dist (P a) (P b) <= v * Rabs (a - b)) /\ forall a, norm (W a) <= v.
Definition subtracts (eps : R) (minus : R -> R -> R) : Prop := forall a d, Rabs (minus a d - (a - d)) <= eps.
