(** Model of utils/config.h: Config::get for a value, a list and a matrix, and
    YAML::convert for matrices.  yaml-cpp (0.6) is modelled as far as get uses it:
    the tree, the non-const operator[] and as<>.

    Left out: reading the file (LoadFile), the text of the error messages, YAML
    anchors that make a tree contain itself, and DISABLE_CHECK.  YAML::Clone makes
    the changes that operator[] does to the tree unobservable; only what it
    returns is modelled.  A conversion of a scalar is an arbitrary function
    [dec] of its text. *)
From Coq Require Import ZArith String Ascii List Bool.
From Verif Require Import LogNameModel StrModel.
Import ListNotations.

Inductive yaml :=
| Null
| Scalar (s : string)
| Seq (l : list yaml)
| Map (l : list (yaml * yaml)).

(** yaml-cpp node::equals with a string: convert<std::string>::decode takes scalars only *)
Definition key_is (k : string) (n : yaml) : bool := match n with Scalar s => String.eqb s k | _ => false end.

(** yaml-cpp node_data::get(key) for a map: the first pair whose key is equal *)
Fixpoint look (k : string) (l : list (yaml * yaml)) : option yaml :=
  match l with [] => None | (a, v) :: r => if key_is k a then Some v else look k r end.

(** yaml-cpp node_data::convert_sequence_to_map: the keys are the indices in decimal *)
Fixpoint numbered (i : nat) (l : list yaml) : list (yaml * yaml) :=
  match l with [] => [] | v :: r => (Scalar (dec (Z.of_nat i)), v) :: numbered (S i) r end.

(** operator[] on a node that is not const, followed by the test of operator bool *)
Inductive child := Child (n : yaml) | Missing | BadSubscript.
Definition subscript (n : yaml) (k : string) : child :=
  match n with
  | Scalar _ => BadSubscript
  | Null => Missing
  | Seq l => match look k (numbered 0 l) with Some v => Child v | None => Missing end
  | Map l => match look k l with Some v => Child v | None => Missing end
  end.

(** node.as<T>(): a value, the exception TypedBadConversion<T>, or another exception *)
Inductive conversion (A : Type) := Value (a : A) | BadConversion | OtherException.
Arguments Value {A}. Arguments BadConversion {A}. Arguments OtherException {A}.

(** as<T>() for numbers, booleans and strings *)
Definition as_scalar {A} (dec : string -> option A) (n : yaml) : conversion A :=
  match n with Scalar s => match dec s with Some a => Value a | None => BadConversion end | _ => BadConversion end.

(** as<std::vector<T>>(): the exception of an element is TypedBadConversion<T>,
    not TypedBadConversion<std::vector<T>> *)
Fixpoint elements {A} (dec : string -> option A) (l : list yaml) : option (list A) :=
  match l with
  | [] => Some []
  | n :: r => match as_scalar dec n with
              | Value a => match elements dec r with Some x => Some (a :: x) | None => None end
              | _ => None
              end
  end.
Definition as_vector {A} (dec : string -> option A) (n : yaml) : conversion (list A) :=
  match n with
  | Seq l => match elements dec l with Some x => Value x | None => OtherException end
  | _ => BadConversion
  end.

(** how a call of get ends: true with a new value of the output, false with the
    output as it was, exit(-1) in check, or an exception *)
Inductive outcome (A : Type) := Found (a : A) | NotFound | Exit | Raise.
Arguments Found {A}. Arguments NotFound {A}. Arguments Exit {A}. Arguments Raise {A}.

(** config.h:87-119 *)
Fixpoint get_path {A} (conv : yaml -> conversion A) (node : yaml) (path : list string) (required : bool) : outcome A :=
  match path with
  | [] => NotFound
  | k :: r =>
    match subscript node k with
    | BadSubscript => Raise
    | Missing => if required then Exit else NotFound
    | Child c =>
      match r with
      | [] => match conv c with Value a => Found a | BadConversion => NotFound | OtherException => Raise end
      | _ => get_path conv c r required
      end
    end
  end.
Definition get {A} (conv : yaml -> conversion A) (cfg : yaml) (key : string) (required : bool) : outcome A :=
  get_path conv cfg (split_string key "/"%char) required.

(** config.h:59-84: Eigen::Map reads rows*cols elements from the start of the
    vector; beyond its end that is undefined behaviour ([None]) *)
Fixpoint read_rows {A} (l : list A) (rows cols : nat) : option (list (list A)) :=
  match rows with
  | O => Some []
  | S r => if Nat.ltb (length l) cols then None
           else match read_rows (skipn cols l) r cols with Some m => Some (firstn cols l :: m) | None => None end
  end.
Definition get_matrix {A} (dec : string -> option A) (cfg : yaml) (key : string) (rows cols : nat) (required : bool)
    : option (outcome (list (list A))) :=
  match get (as_vector dec) cfg key required with
  | Found l => match read_rows l rows cols with Some m => Some (Found m) | None => None end
  | NotFound => Some NotFound
  | Exit => Some Exit
  | Raise => Some Raise
  end.

(** config.h:15-25; [enc] is the text of a scalar.  A matrix is the list of its rows. *)
Definition encode {A} (enc : A -> string) (m : list (list A)) : yaml := Seq (map (fun x => Scalar (enc x)) (concat m)).

(** config.h:27-46 *)
Fixpoint decode_row {A} (dec : string -> option A) (l : list yaml) (cols : nat) {struct cols} : conversion (list A * list yaml) :=
  match cols with
  | O => Value ([], l)
  | S c => match l with
           | [] => BadConversion
           | n :: r => match as_scalar dec n with
                       | Value a => match decode_row dec r c with
                                    | Value (x, rest) => Value (a :: x, rest)
                                    | BadConversion => BadConversion
                                    | OtherException => OtherException
                                    end
                       | _ => OtherException
                       end
           end
  end.
Fixpoint decode_rows {A} (dec : string -> option A) (l : list yaml) (rows cols : nat) : conversion (list (list A)) :=
  match rows with
  | O => Value []
  | S r => match decode_row dec l cols with
           | Value (x, rest) => match decode_rows dec rest r cols with
                                | Value m => Value (x :: m)
                                | BadConversion => BadConversion
                                | OtherException => OtherException
                                end
           | BadConversion => BadConversion
           | OtherException => OtherException
           end
  end.
(** as<Eigen::Matrix>(): decode returning false is TypedBadConversion of the matrix type *)
Definition as_matrix {A} (dec : string -> option A) (rows cols : nat) (n : yaml) : conversion (list (list A)) :=
  match n with Seq l => decode_rows dec l rows cols | _ => BadConversion end.
