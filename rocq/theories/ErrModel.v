(** Model of common/error.h, and of the constructors of common/error_result.h. *)
From Coq Require Import String List Arith Bool.
Import ListNotations.

(** ** Errors: a pointer to a text.  An address is a number, 0 is the null pointer.
    error.h:18-22, 49 *)
Definition error := nat.
(** error.h:49 *)
Definition none : error := 0.
(** error.h:72 *)
Definition ok (e : error) : bool := e =? 0.
(** error.h:51-54 *)
Definition eq (a b : error) : bool := a =? b.
(** error.h:56-59 *)
Definition neq (a b : error) : bool := negb (a =? b).
(** error.h:61-64: the address of the text given, not the text *)
Definition eq_text (a : error) (p : nat) : bool := a =? p.
(** error.h:73, read up to its end: a null pointer, a text, or what is no longer an object *)
Inductive text := Null | Text (t : string) | Dangling.
Definition memory := nat -> option string.
Definition what (m : memory) (e : error) : text :=
  if e =? 0 then Null else match m e with Some t => Text t | None => Dangling end.
(** error.h:41-47.  The argument is a reference to an array of N characters, the text and its
    end.  toArray (lines 24-37) stands inside decltype and is not evaluated, so that the array
    need not be constant; its type has N characters and line 45 asks for N > 0 *)
Definition accepted (t : string) : bool := 0 <? S (String.length t).

(** ** Programs that make errors.
    [Literal k] is Error::create with the literal written at place k of the source; [Array a] is
    Error::create with the array a; [Fill a t] defines or writes array a, [Leave a] ends its life *)
Inductive stmt := Literal (k : nat) | Array (a : nat) | NoError | Fill (a : nat) (t : string) | Leave (a : nat).
Section Run.
(** where the compiler puts literals and arrays; [image] is what the memory holds at the start *)
Variable lit_at arr_at : nat -> nat.
Definition set (m : memory) (x : nat) (v : option string) : memory := fun y => if y =? x then v else m y.
Definition exec (st : memory * list error) (s : stmt) : memory * list error :=
  let (m, es) := st in
  match s with
  | Literal k => (m, es ++ [lit_at k])
  | Array a => (m, es ++ [arr_at a])
  | NoError => (m, es ++ [none])
  | Fill a t => (set m (arr_at a) (Some t), es)
  | Leave a => (set m (arr_at a) None, es)
  end.
Definition run (image : memory) (p : list stmt) : memory * list error := fold_left exec p (image, []).
End Run.

(** ** error.h:76-80 on a stream of the standard library: writing a null pointer sets badbit (the
    standard leaves it undefined; this is libstdc++), after which nothing more is written *)
Definition stream : Type := bool * string.
Definition put (o : stream) (w : text) : option stream :=
  let (good, out) := o in
  if good then match w with Null => Some (false, out) | Text t => Some (true, (out ++ t)%string) | Dangling => None end else Some o.
Fixpoint put_all (o : stream) (ws : list text) : option stream :=
  match ws with [] => Some o | w :: r => match put o w with Some o' => put_all o' r | None => None end end.

(** ** error.h:9-16 RETURN_IF_NOT_OK inside a function *)
Inductive expr := Name (n : string) | Call (f : nat) (args : list string).
Inductive line := Declare (n : string) (e : expr) | ReturnIfNotOk (e : expr).
(** a variable before its initialiser is evaluated, and after *)
Inductive cell := Uninit | Val (e : error).
Inductive outcome (S : Type) := Returned (e : error) (s : S) | FellThrough (env : list (string * cell)) (s : S) | Undefined.
Arguments Returned {S}. Arguments FellThrough {S}. Arguments Undefined {S}.
Section Macro.
Variable S : Type.
(** what the functions called do *)
Variable fn : nat -> list error -> S -> error * S.
Fixpoint lookup (env : list (string * cell)) (n : string) : option error :=
  match env with
  | [] => None
  | (k, c) :: r => if String.eqb n k then match c with Val e => Some e | Uninit => None end else lookup r n
  end.
Fixpoint lookups (env : list (string * cell)) (ns : list string) : option (list error) :=
  match ns with
  | [] => Some []
  | n :: r => match lookup env n, lookups env r with Some e, Some l => Some (e :: l) | _, _ => None end
  end.
Definition eval (env : list (string * cell)) (e : expr) (s : S) : option (error * S) :=
  match e with
  | Name n => match lookup env n with Some v => Some (v, s) | None => None end
  | Call f args => match lookups env args with Some l => Some (fn f l s) | None => None end
  end.
(** A variable is in scope in its own initialiser; the macro declares one called err *)
Fixpoint body (ls : list line) (env : list (string * cell)) (s : S) : outcome S :=
  match ls with
  | [] => FellThrough env s
  | Declare n e :: r => match eval ((n, Uninit) :: env) e s with Some (v, s') => body r ((n, Val v) :: env) s' | None => Undefined end
  | ReturnIfNotOk e :: r =>
    match eval (("err"%string, Uninit) :: env) e s with
    | Some (v, s') => if ok v then body r env s' else Returned v s'
    | None => Undefined
    end
  end.
End Macro.

(** ** error_result.h:20-35.  [checks] is whether DISABLE_CHECK is not defined (check.cxx:17);
    [None] is the end of the process *)
Inductive error_result (T : Type) := OfError (e : error) | OfValue (v : T).
Arguments OfError {T}. Arguments OfValue {T}.
Definition of_error {T} (checks : bool) (e : error) : option (error_result T) :=
  if checks && negb (negb (ok e)) then None else Some (OfError e).
Definition of_value {T} (v : T) : error_result T := OfValue v.
(** error_result.h:31 *)
Definition has_value {T} (r : error_result T) : bool := match r with OfValue _ => true | OfError _ => false end.
(** error_result.h:33-34: std::get throws for the other kind *)
Definition res {T} (r : error_result T) : option T := match r with OfValue v => Some v | OfError _ => None end.
Definition err {T} (r : error_result T) : option error := match r with OfError e => Some e | OfValue _ => None end.
