From Coq Require Import ZArith Reals Arith List Lia Lra.
From Flocq Require Import Core IEEE754.BinarySingleNaN.
From Verif Require Import Float64 SatCloseProofs StkModel StkSpec StkProofs.
Import ListNotations.

(** C247: hstack and vstack put matrices beside and above each other. *)
Theorem c247_hstack : forall E ndebug (a b : mat E), rows a = rows b -> rows a <> 0 -> exists m, hstack ndebug a b = Done m /\ beside a b m.
Proof. intros E n a b. exact (hstack_ok n a b). Qed.
Print Assumptions c247_hstack.
Theorem c247_vstack : forall E ndebug (a b : mat E), cols a = cols b -> cols a <> 0 -> exists m, vstack ndebug a b = Done m /\ above a b m.
Proof. intros E n a b. exact (vstack_ok n a b). Qed.
Print Assumptions c247_vstack.
Definition m23 : mat nat := mkMat 2 3 (fun i j => 10 * i + j).
Definition m21 : mat nat := mkMat 2 1 (fun i j => 100 + i).
Example c247_case : rows m23 = rows m21 /\ rows m23 <> 0 /\
  match hstack false m23 m21 with Done m => (orows m, ocols m, oentry m 1 2, oentry m 1 3) = (2, 4, Some 12, Some 101) | _ => False end.
Proof. split; [reflexivity|]. split; [discriminate|]. vm_compute. reflexivity. Qed.

(** C248: hstack and vstack refuse matrices that do not fit.  Refuted for builds with NDEBUG:
    the missing entries are not written. *)
Theorem c248_refused_refuted : forall E (a b : mat E), rows b < rows a -> 0 < cols b ->
  exists m, hstack true a b = Done m /\ orows m = rows a /\ ocols m = cols a + cols b /\ oentry m (rows b) (cols a) = None.
Proof. intros E a b R C. apply hstack_hole; lia. Qed.
Print Assumptions c248_refused_refuted.
Theorem c248_refused_partial : forall E (a b : mat E), (rows a <> rows b -> hstack false a b = Stopped) /\ (cols a <> cols b -> vstack false a b = Stopped).
Proof. intros E a b. split; [apply hstack_refused|apply vstack_refused]. Qed.
Print Assumptions c248_refused_partial.
Example c248_case : rows (mkMat 1 1 (fun _ _ => 7)) < rows m23 /\ 0 < cols (mkMat 1 1 (fun _ _ => 7)) /\ cols m23 <> cols m21.
Proof. cbn [rows cols m23 m21]. lia. Qed.

(** C249: tile gives copies of the matrix.  Refuted for all matrices: no entry is written. *)
Theorem c249_copies_refuted : forall E ndebug (a : mat E) v h, 0 < rows a -> 0 < cols a -> 0 < v -> 0 < h ->
  exists m, tile ndebug a v h = Done m /\ (forall i j, oentry m i j = None) /\ ~ copies a v h m.
Proof.
  intros E n a v h R C V H. rewrite tile_empty. eexists. split; [reflexivity|]. split; [reflexivity|]. intros (_ & _ & K). specialize (K 0 0 V H 0 0 R C). discriminate K.
Qed.
Print Assumptions c249_copies_refuted.
(** Proved: it ends, and the size is right *)
Theorem c249_copies_partial : forall E ndebug (a : mat E) v h, exists m, tile ndebug a v h = Done m /\ orows m = rows a * v /\ ocols m = cols a * h.
Proof. intros E n a v h. rewrite tile_empty. eexists. split; [reflexivity|]. split; reflexivity. Qed.
Print Assumptions c249_copies_partial.
Example c249_case : 0 < rows m23 /\ 0 < cols m23 /\ match tile false m23 2 3 with Done m => (orows m, ocols m) = (4, 9) | _ => False end.
Proof. cbn [rows cols m23]. split; [lia|]. split; [lia|]. vm_compute. reflexivity. Qed.

Local Open Scope R_scope.
(** C250: modf gives the whole part and the rest of every entry, exactly.  Refuted for
    entries from 2^31, and when the whole parts are put into the matrix itself. *)
Theorem c250_large_refuted : forall x, Exists (fun a => finite a = true /\ ~ (- 2 ^ 31 <= Ztrunc (val a) < 2 ^ 31)%Z) x ->
  (forall alias, modf2 alias x = None) /\ modf1 x = None.
Proof. intros x H. unfold modf2, modf1. rewrite (cast_bad x H). split; reflexivity. Qed.
Print Assumptions c250_large_refuted.
Theorem c250_alias_refuted : forall x, Forall (fun a => finite a = true /\ (- 2 ^ 31 <= Ztrunc (val a) < 2 ^ 31)%Z) x ->
  exists f i, modf2 true x = Some (f, i) /\ length f = length x /\ Forall (fun d => val d = 0) f.
Proof. exact alias_zero. Qed.
Print Assumptions c250_alias_refuted.
(** Proved for entries whose whole parts are ints *)
Theorem c250_parts_partial : forall x, Forall (fun a => finite a = true /\ (- 2 ^ 31 <= Ztrunc (val a) < 2 ^ 31)%Z) x ->
  exists f i, modf2 false x = Some (f, i) /\ modf1 x = Some f /\ each parts x f i.
Proof. intros x H. destruct (cast_ok x H) as (z & C & P). unfold modf2, modf1. rewrite C. eexists. eexists. split; [reflexivity|]. split; [reflexivity|exact P]. Qed.
Print Assumptions c250_parts_partial.
Example c250_case : Forall (fun a => finite a = true /\ (- 2 ^ 31 <= Ztrunc (val a) < 2 ^ 31)%Z) [lit 5 (-1); of_Z (-2147483648)] /\ val (lit 5 (-1)) = 5 / 2 /\
  (finite (of_Z 2147483648) = true /\ ~ (- 2 ^ 31 <= Ztrunc (val (of_Z 2147483648)) < 2 ^ 31)%Z).
Proof.
  destruct (lit_half 5 ltac:(lia)) as [V F]. split; [constructor; [|constructor; [|constructor]]|split; [exact V|]].
  - split; [exact F|]. rewrite V, Ztrunc_floor by lra. rewrite (Zfloor_imp 2) by (cbn; lra). lia.
  - split; [vm_compute; reflexivity|]. rewrite val_of_Z_exact by lia. rewrite Ztrunc_IZR. lia.
  - split; [vm_compute; reflexivity|]. rewrite val_of_Z_exact by lia. rewrite Ztrunc_IZR. lia.
Qed.
