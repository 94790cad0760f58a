(** Specification of errors: what they mean, without addresses. *)
From Coq Require Import String List Arith Bool.
From Verif Require Import ErrModel.
Import ListNotations.

(** What each error of a program was made to say: [None] is "no error" *)
Fixpoint said (source : nat -> string) (arrays : nat -> option string) (p : list stmt) : list (option string) :=
  match p with
  | [] => []
  | Literal k :: r => Some (source k) :: said source arrays r
  | Array a :: r => arrays a :: said source arrays r
  | NoError :: r => None :: said source arrays r
  | Fill a t :: r => said source (fun b => if b =? a then Some t else arrays b) r
  | Leave a :: r => said source (fun b => if b =? a then None else arrays b) r
  end.
(** Programs that make errors from literals alone, as all of the repository do *)
Fixpoint literals (p : list stmt) : bool :=
  match p with [] => true | Array _ :: _ => false | _ :: r => literals r end.

(** What a compiler may do with literals and arrays: nothing at address 0, the text of each
    literal at its address, and no literal where an array is.  Literals with the same text may
    share an address or not *)
Definition laid_out (source : nat -> string) (lit_at arr_at : nat -> nat) (image : memory) : Prop :=
  (forall k, lit_at k <> 0 /\ image (lit_at k) = Some (source k)) /\
  (forall a, arr_at a <> 0) /\ (forall k a, lit_at k <> arr_at a) /\ (forall a b, arr_at a = arr_at b -> a = b).
(** Literals with the same text share an address *)
Definition pooled (source : nat -> string) (lit_at : nat -> nat) : Prop := forall j k : nat, source j = source k -> lit_at j = lit_at k.

(** The text that should be on a stream *)
Definition texts (ts : list (option string)) : string :=
  String.concat "" (map (fun t => match t with Some t => t | None => "" end) ts)%string.
Definition shown (t : option string) : text := match t with Some t => Text t | None => Null end.
(** The errors before the first "no error" *)
Fixpoint up_to_none (ts : list (option string)) : list (option string) :=
  match ts with Some t :: r => Some t :: up_to_none r | _ => [] end.

(** The meaning of RETURN_IF_NOT_OK: the expression is the one the function around it has *)
Section Means.
Variable S : Type.
Variable fn : nat -> list error -> S -> error * S.
Fixpoint means (ls : list line) (env : list (string * cell)) (s : S) : outcome S :=
  match ls with
  | [] => FellThrough env s
  | Declare n e :: r => match eval S fn ((n, Uninit) :: env) e s with Some (v, s') => means r ((n, Val v) :: env) s' | None => Undefined end
  | ReturnIfNotOk e :: r =>
    match eval S fn env e s with Some (v, s') => if v =? 0 then means r env s' else Returned v s' | None => Undefined end
  end.
End Means.
(** the names an expression uses *)
Definition names (e : expr) : list string := match e with Name n => [n] | Call _ l => l end.
Definition free_of_err (l : line) : Prop := match l with ReturnIfNotOk e => ~ In "err"%string (names e) | Declare _ _ => True end.
