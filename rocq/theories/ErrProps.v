(** Properties of common/error.h and common/error_result.h. *)
From Coq Require Import String List Arith Bool Lia.
From Verif Require Import ErrModel ErrSpec ErrProofs.
Import ListNotations.
Local Open Scope string_scope.

(** C230: two errors are equal exactly when they say the same.  It fails: addresses are
    compared.  Equal errors made from literals say the same *)
Theorem c230_equal_partial : forall source lit_at arr_at image p arrays i j e f k,
  laid_out source lit_at arr_at image -> literals p = true ->
  nth_error (snd (run lit_at arr_at image p)) i = Some e -> nth_error (snd (run lit_at arr_at image p)) j = Some f ->
  (eq e f = true -> nth_error (said source arrays p) i = nth_error (said source arrays p) j) /\
  (neq e f = false -> nth_error (said source arrays p) i = nth_error (said source arrays p) j) /\
  (eq_text e (lit_at k) = true -> nth_error (said source arrays p) i = Some (Some (source k))).
Proof. exact equal_texts. Qed.
Print Assumptions c230_equal_partial.
(** ... and the converse holds where the compiler keeps one copy of each text *)
Theorem c230_pooled_partial : forall source lit_at arr_at image p arrays i j e f k,
  laid_out source lit_at arr_at image -> literals p = true -> pooled source lit_at ->
  nth_error (snd (run lit_at arr_at image p)) i = Some e -> nth_error (snd (run lit_at arr_at image p)) j = Some f ->
  (nth_error (said source arrays p) i = nth_error (said source arrays p) j -> eq e f = true /\ neq e f = false) /\
  (nth_error (said source arrays p) i = Some (Some (source k)) -> eq_text e (lit_at k) = true).
Proof. exact pooled_equal. Qed.
Print Assumptions c230_pooled_partial.
(** Nothing obliges the compiler to do so: then errors with the same text differ, from each
    other and from the text *)
Theorem c230_equal_refuted : exists source lit_at arr_at image p, laid_out source lit_at arr_at image /\ literals p = true /\
  exists e f k, nth_error (snd (run lit_at arr_at image p)) 0 = Some e /\ nth_error (snd (run lit_at arr_at image p)) 1 = Some f /\
  nth_error (said source (fun _ => None) p) 0 = nth_error (said source (fun _ => None) p) 1 /\ nth_error (said source (fun _ => None) p) 0 = Some (Some (source k)) /\
  eq e f = false /\ eq_text e (lit_at k) = false.
Proof.
  exists (fun _ => "Unknown satellite"), apart, between, (image_of (fun _ => "Unknown satellite")), [Literal 0; Literal 1].
  split; [apply apart_laid|]. split; [reflexivity|]. exists (apart 0), (apart 1), 2. repeat split.
Qed.
Print Assumptions c230_equal_refuted.
(** Errors made from an array are equal although they were made to say different things *)
Theorem c230_array_refuted : exists source lit_at arr_at image p e f, laid_out source lit_at arr_at image /\
  nth_error (snd (run lit_at arr_at image p)) 0 = Some e /\ nth_error (snd (run lit_at arr_at image p)) 1 = Some f /\ eq e f = true /\
  nth_error (said source (fun _ => None) p) 0 = Some (Some "no file") /\ nth_error (said source (fun _ => None) p) 1 = Some (Some "no disk").
Proof.
  exists (fun _ => ""), apart, between, (image_of (fun _ => "")), [Fill 0 "no file"; Array 0; Fill 0 "no disk"; Array 0], (between 0), (between 0).
  split; [apply apart_laid|]. repeat split.
Qed.
Print Assumptions c230_array_refuted.
Example c230_case : laid_out (fun _ => "exit early") (fun _ => 1) between (image_of (fun _ => "exit early")) /\ pooled (fun _ => "exit early") (fun _ => 1) /\
  literals [Literal 0; NoError; Literal 3] = true /\ snd (run (fun _ => 1) between (image_of (fun _ => "exit early")) [Literal 0; NoError; Literal 3]) = [1; 0; 1].
Proof. split; [apply one_pooled|]. split; [apply one_pooled|]. split; reflexivity. Qed.

(** C231: what() gives the text an error was made with, whenever it is asked.  It holds for
    errors made from literals, whatever is done with arrays meanwhile *)
Theorem c231_keeps_partial : forall source lit_at arr_at image p arrays i t,
  laid_out source lit_at arr_at image -> literals p = true -> nth_error (said source arrays p) i = Some t ->
  exists e, nth_error (snd (run lit_at arr_at image p)) i = Some e /\ what (fst (run lit_at arr_at image p)) e = shown t.
Proof. exact (fun source lit_at arr_at image p arrays i t Lay => keeps source lit_at arr_at image Lay p arrays i t). Qed.
Print Assumptions c231_keeps_partial.
(** An array is accepted too; the error changes with it, and dangles after it *)
Theorem c231_array_refuted : exists source lit_at arr_at image p q e, laid_out source lit_at arr_at image /\
  nth_error (said source (fun _ => None) p) 0 = Some (Some "no file") /\ nth_error (said source (fun _ => None) q) 0 = Some (Some "no file") /\
  nth_error (snd (run lit_at arr_at image p)) 0 = Some e /\ nth_error (snd (run lit_at arr_at image q)) 0 = Some e /\
  what (fst (run lit_at arr_at image p)) e = Text "no disk" /\ what (fst (run lit_at arr_at image q)) e = Dangling.
Proof.
  exists (fun _ => ""), apart, between, (image_of (fun _ => "")), [Fill 0 "no file"; Array 0; Fill 0 "no disk"], [Fill 0 "no file"; Array 0; Leave 0], (between 0).
  split; [apply apart_laid|]. repeat split.
Qed.
Print Assumptions c231_array_refuted.
Example c231_case : exists e, nth_error (snd (run apart between (image_of (fun k => if Nat.eqb k 0 then "a" else "b")) [Fill 0 "c"; Literal 1; Fill 0 "d"])) 0 = Some e /\
  what (fst (run apart between (image_of (fun k => if Nat.eqb k 0 then "a" else "b")) [Fill 0 "c"; Literal 1; Fill 0 "d"])) e = Text "b".
Proof. exists 3. split; reflexivity. Qed.

(** C232: an error that was made is not "no error" and has a message.  The first holds *)
Theorem c232_ok_partial : forall source lit_at arr_at image p arrays i e,
  laid_out source lit_at arr_at image -> literals p = true -> nth_error (snd (run lit_at arr_at image p)) i = Some e ->
  (ok e = true <-> nth_error (said source arrays p) i = Some None).
Proof.
  intros source lit_at arr_at image p arrays i e Lay L H. split.
  - intros O. exact (made_not_ok source lit_at arr_at image Lay p arrays i e (proj1 (proj2 Lay)) H O L).
  - exact (none_ok source lit_at arr_at image p arrays i e H L).
Qed.
Print Assumptions c232_ok_partial.
(** ... but the check that the message is not empty counts the end of the text *)
Theorem c232_message_refuted : exists t : string, accepted t = true /\ t = "".
Proof. exists "". split; reflexivity. Qed.
Print Assumptions c232_message_refuted.
Example c232_case : snd (run apart between (image_of (fun _ => "exit early")) [Literal 4; NoError]) = [9; 0] /\ accepted "exit early" = true.
Proof. split; reflexivity. Qed.

(** C233: what is printed is the text of each error, in order.  It holds up to the first
    Error::none(); nothing is printed after it *)
Theorem c233_prints_partial : forall ts : list (option string), ~ In None ts -> put_all (true, "") (map shown ts) = Some (true, texts ts).
Proof.
  intros ts H. rewrite (put_shown ts ""), (up_to_all ts H). f_equal. f_equal. apply forallb_forall. intros [t|] I; [reflexivity|contradiction].
Qed.
Print Assumptions c233_prints_partial.
Theorem c233_stops : forall (ts us : list (option string)), ~ In None ts -> put_all (true, "") (map shown (ts ++ None :: us)) = Some (false, texts ts).
Proof.
  intros ts us H. rewrite put_shown. rewrite forallb_app. cbn [forallb]. rewrite andb_false_r. f_equal. f_equal.
  change ("" ++ ?x)%string with x. f_equal. rewrite <- (up_to_all ts H) at 2. clear H. induction ts as [|[t|] ts IH]; [reflexivity| |reflexivity]. cbn. f_equal. exact IH.
Qed.
Print Assumptions c233_stops.
Theorem c233_prints_refuted : exists (ts : list (option string)) o, put_all (true, "") (map shown ts) = Some o /\ snd o <> texts ts.
Proof. exists [None; Some "exit early"], (false, ""). split; [reflexivity|discriminate]. Qed.
Print Assumptions c233_prints_refuted.
Example c233_case : ~ In None [Some "a"; Some "b"] /\ put_all (true, "") (map shown [Some "a"; Some "b"]) = Some (true, "ab").
Proof. split; [intros [H|[H|[]]]; discriminate|reflexivity]. Qed.

(** C234: RETURN_IF_NOT_OK evaluates its argument once, returns the first error and runs
    nothing after it.  It holds for arguments that do not use a name err *)
Theorem c234_means_partial : forall (S : Type) (fn : nat -> list error -> S -> error * S) (ls : list line) env s,
  Forall free_of_err ls -> body S fn ls env s = means S fn ls env s.
Proof. intros S fn ls env s F. exact (body_means S fn ls F env s). Qed.
Print Assumptions c234_means_partial.
Theorem c234_first : forall (S : Type) (fn : nat -> list error -> S -> error * S) (before after : list line) f args env s env' s' l v s'',
  ~ In "err" args -> body S fn before env s = FellThrough env' s' -> lookups env' args = Some l -> fn f l s' = (v, s'') ->
  body S fn (before ++ ReturnIfNotOk (Call f args) :: after) env s = if Nat.eqb v 0 then body S fn after env' s'' else Returned v s''.
Proof.
  intros S fn before after f args env s env' s' l v s'' N B L F. rewrite body_app, B. cbn [body]. rewrite eval_other by exact N. cbn [eval]. rewrite L, F. reflexivity.
Qed.
Print Assumptions c234_first.
(** With a variable called err the macro reads the variable that it declares itself *)
Theorem c234_means_refuted : exists (fn : nat -> list error -> nat -> error * nat) ls s, means nat fn ls [] s = Returned 7 1 /\ body nat fn ls [] s = Undefined.
Proof. exists (fun _ _ s => (7, s + 1)), [Declare "err" (Call 0 []); ReturnIfNotOk (Name "err")], 0. split; reflexivity. Qed.
Print Assumptions c234_means_refuted.
Example c234_case : Forall free_of_err [Declare "first" (Call 0 []); ReturnIfNotOk (Name "first"); ReturnIfNotOk (Call 1 ["first"])] /\
  body nat (fun f _ s => (if Nat.eqb f 0 then 0 else 9, s + 1)) [Declare "first" (Call 0 []); ReturnIfNotOk (Name "first"); ReturnIfNotOk (Call 1 ["first"]); ReturnIfNotOk (Call 0 [])] [] 0 = Returned 9 2.
Proof.
  split; [|reflexivity]. repeat constructor; cbn; intros H; repeat (destruct H as [H|H]; [discriminate|]); exact H.
Qed.

(** C235: a result without a value has an error.  It holds unless checks are disabled *)
Theorem c235_result_partial : forall (T : Type) (e : error) (r : error_result T), of_error true e = Some r ->
  has_value r = false /\ res r = None /\ err r = Some e /\ ok e = false.
Proof. intros T e r. unfold of_error. destruct (ok e) eqn:E; cbn; [discriminate|]. intros H. inversion H. repeat split. Qed.
Print Assumptions c235_result_partial.
Theorem c235_value : forall (T : Type) (v : T), has_value (of_value v) = true /\ res (of_value v) = Some v /\ err (of_value v) = None.
Proof. intros T v. repeat split. Qed.
Print Assumptions c235_value.
Theorem c235_none : forall (T : Type) (e : error), of_error (T := T) true e = None <-> ok e = true.
Proof. intros T e. unfold of_error. destruct (ok e); cbn; split; congruence. Qed.
Print Assumptions c235_none.
Theorem c235_result_refuted : exists (e : error) (r : error_result nat), of_error false e = Some r /\ has_value r = false /\ err r = Some e /\ ok e = true.
Proof. exists none, (OfError none). repeat split. Qed.
Print Assumptions c235_result_refuted.
Example c235_case : of_error (T := nat) true 5 = Some (OfError 5) /\ of_error (T := nat) true none = None.
Proof. split; reflexivity. Qed.
