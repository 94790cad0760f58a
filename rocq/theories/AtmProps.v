(** C124 to C126: delays in the atmosphere and the time of transmission. *)
From Coq Require Import ZArith Reals Lra Lia.
From Verif Require Import RotModel RotSpec OrbModel AtmModel AtmSpec AtmProofs AtmIonoProofs AtmTimeProofs.
Local Open Scope R_scope.

(** ** C124 *)
(** Near the horizon the delay exceeds every bound. *)
Theorem c124_bounded_refuted : forall lat h bound, -100 <= h <= 10000 -> exists el x, 0 < el < 1 /\ computeTroposphericDelay lat h el = Some x /\ bound < x.
Proof. exact trop_unbounded. Qed.
Print Assumptions c124_bounded_refuted.
(** It is a zenith delay of at most two and a half metres divided by the sine of the elevation. *)
Theorem c124_zenith_partial : forall lat h, -100 <= h <= 10000 ->
  exists zenith, 0 < zenith <= 5 / 2 /\ forall el, 0 < el < PI -> computeTroposphericDelay lat h el = Some (zenith / sin el).
Proof. exact trop_ok. Qed.
Print Assumptions c124_zenith_partial.
(** A higher receiver sees no more of it. *)
Theorem c124_height : forall lat a b el, -100 <= a -> a <= b -> b <= 10000 -> 0 < el < PI ->
  exists x y, computeTroposphericDelay lat a el = Some x /\ computeTroposphericDelay lat b el = Some y /\ 0 < y <= x.
Proof. exact trop_higher. Qed.
Print Assumptions c124_height.
(** Outside the troposphere and below the horizon there is none. *)
Theorem c124_outside : forall lat h el, h < -100 \/ 10000 < h \/ el <= 0 -> computeTroposphericDelay lat h el = Some 0.
Proof. exact trop_outside. Qed.
Print Assumptions c124_outside.
Example c124_meets : -100 <= 0 /\ 0 <= 1400 /\ 1400 <= 10000 /\ 0 < 1 < PI.
Proof. pose proof PI2_1. lra. Qed.

(** ** C125 *)
(** The local time is eighteen seconds late. *)
Theorem c125_leap_refuted : exists tow lat lon az el d, 0 <= el <= PI / 2 /\ computeIonosphericDelay tow lat lon az el = Some d /\
  ~ klobuchar tow (lat / PI) (lon / PI) az (el / PI) d.
Proof.
  destruct iono_leap_case as (d & E & N). pose proof PI_RGT_0. exists (237456 / 10), 0, (lon_z * PI), (PI / 2), (PI / 2), d. split; [lra|]. split; [exact E|exact N].
Qed.
Print Assumptions c125_leap_refuted.
(** Otherwise it is the model. *)
Theorem c125_model_partial : forall tow lat lon az el, - (11 / 100) * PI < el ->
  exists d, computeIonosphericDelay tow lat lon az el = Some d /\ klobuchar (tow + 18) (lat / PI) (lon / PI) az (el / PI) d.
Proof. exact iono_form. Qed.
Print Assumptions c125_model_partial.
(** For every satellite in view: at least a metre and a half, at most 34. *)
Theorem c125_bounds : forall tow lat lon az el, 0 <= el <= PI / 2 -> exists d, computeIonosphericDelay tow lat lon az el = Some d /\ 149 / 100 <= d <= 34.
Proof.
  intros tow lat lon az el E. pose proof PI_RGT_0 as P. destruct (iono_form tow lat lon az el) as (d & F & Kl); [lra|]. exists d. split; [exact F|].
  refine (klobuchar_bounds _ _ _ _ _ _ _ Kl). split; apply (Rmult_le_reg_r PI); try exact P; unfold Rdiv; rewrite (Rmult_assoc el), Rinv_l by lra; lra.
Qed.
Print Assumptions c125_bounds.
Example c125_meets : 0 <= PI / 4 <= PI / 2.
Proof. pose proof PI_RGT_0. lra. Qed.

(** ** C126 *)
(** A satellite that stands still over the Earth is taken at the time of reception, a tenth of a second late, and the Sagnac term is not set. *)
Theorem c126_still_refuted : exists P W rec, forall t fuel, update fuel Rminus P W t rec = Some (t, None) /\ 1 / 10 < miss P rec t t.
Proof. exists P_still, W_still, r_eq. intros t fuel. apply still_case. Qed.
Print Assumptions c126_still_refuted.
(** For satellites that move: three rounds are enough up to a fifth of a second, and the time of transmission is found to better than 1.2 ns
    for speeds from 1000 to 5000 m/s; then the position is right to a fiftieth of a millimetre. *)
Theorem c126_found_partial : forall P W v t rec minus, v <= 5000 -> slower v P W -> (forall a, 1000 <= norm (W a)) ->
  norm rec <= 10000000 -> subtracts (1 / 10 ^ 9) minus -> Rabs (travel P rec t) <= 1 / 5 ->
  exists s sagnac, (forall fuel, (3 <= fuel)%nat -> update fuel minus P W t rec = Some (s, Some sagnac)) /\ miss P rec t s <= 12 / 10 ^ 10 /\
    forall s0, t - s0 = travel P rec s0 -> dist (P s) (P s0) <= 2 / 10 ^ 5.
Proof.
  intros P W v t rec minus Hv Hs Hmin Hr Hm Ht.
  assert (V : 0 < 1000 /\ 1000 <= v /\ v <= 5000). { destruct Hs as [_ S]. specialize (S t). specialize (Hmin t). lra. }
  assert (B : Rabs (travel P rec t) * v <= 1 / 1000 * 1000 ^ 2). { pose proof (Rabs_pos (travel P rec t)). cbn [pow]. nra. }
  assert (U : forall fuel, (3 <= fuel)%nat -> exists s out, update fuel minus P W t rec = Some (s, out) /\ reached P 1000 t rec s out).
  { intros fuel L. exact (update_ok P W v 1000 t rec minus V Hs Hmin Hr Hm 2 fuel L B). }
  destruct (U 3%nat ltac:(lia)) as (s & out & E & [(s1 & O & _) Mi]). exists s, (computeSagnac (P s1) rec). rewrite O in E. split; [|split].
  - assert (Mono : forall f first dt x sg r, light_time f minus P W t rec first dt x sg = Some r -> forall g, (f <= g)%nat -> light_time g minus P W t rec first dt x sg = Some r).
    { induction f as [| f IH]; intros first dt x sg r L g Le; (destruct g as [| g]; [try lia; exact L|]); cbn [light_time] in *;
        (destruct (if first then _ else _); [|exact L]); [discriminate|]. apply (IH _ _ _ _ _ L). lia. }
    intros fuel L. unfold update in *. exact (Mono _ _ _ _ _ _ E fuel L).
  - unfold K in Mi. lra.
  - intros s0 S0. assert (Z : miss P rec t s0 = 0) by (unfold miss; rewrite S0, Rminus_diag_eq, Rabs_R0; reflexivity).
    pose proof (near P W v 1000 t rec V Hs Hr s s0 Z) as N. destruct Hs as [L _]. specialize (L s s0). unfold K in Mi. pose proof (Rabs_pos (s - s0)). nra.
Qed.
Print Assumptions c126_found_partial.
Example c126_meets : 3000 <= 5000 /\ slower 3000 P_pass W_pass /\ (forall a, 1000 <= norm (W_pass a)) /\ norm r_eq <= 10000000 /\ subtracts (1 / 10 ^ 9) Rminus /\ Rabs (travel P_pass r_eq 0) <= 1 / 5.
Proof. destruct pass_case as (A & B & C & D & E). split; [lra|]. split; [exact A|]. split; [intros a; pose proof (B a); lra|]. split; [exact C|]. split; [exact D|exact E]. Qed.
