(** * Py.v : the fragment of Python / pandas scalar semantics the code relies on.
    Exceptions are values, strings are lists of ASCII characters. *)
From Coq Require Export String.
From Coq Require Export List Arith ZArith QArith Bool Ascii Lia Permutation.
From Coq Require Decimal DecimalString DecimalN DecimalZ.
Export ListNotations.
Open Scope nat_scope.

(** ** Exceptions *)

(** The exception classes that the modelled code can raise; [OutOfFuel] is not a Python exception, it
    marks a loop that did not stop within the fuel of the model (theorems prove it never occurs). *)
(* the exceptions raised by the modelled code, e.g. base.py:458-495, check.py:32-99, preprocess.py:170-309 *)
Inductive pyerr :=
| KeyError | IndexError | ValueError | TypeError | AttributeError | NameError
| ZeroDivisionError | UnboundLocalError | OverflowError | OutOfFuel.

(* a Python call returns or raises *)
Inductive res (A : Type) := Ok (a : A) | Err (e : pyerr).
Arguments Ok {A} a. Arguments Err {A} e.

(* sequencing of calls that may raise *)
Definition bind {A B} (x : res A) (f : A -> res B) : res B :=
  match x with Ok a => f a | Err e => Err e end.
Notation "x <- e ;; k" := (bind e (fun x => k)) (at level 61, e at next level, right associativity).
Notation "' p <- e ;; k" := (bind e (fun x => let p := x in k))
  (at level 61, p pattern, e at next level, right associativity).

(* a list comprehension / for loop whose body may raise *)
Fixpoint mapM {A B} (f : A -> res B) (l : list A) : res (list B) :=
  match l with
  | [] => Ok []
  | a :: t => b <- f a ;; bs <- mapM f t ;; Ok (b :: bs)
  end.

(* did the call return *)
Definition isOk {A} (x : res A) : Prop := exists a, x = Ok a.

(** ** Strings *)

(* Python str *)
Definition str := list ascii.
(* string literals *)
Definition lit (s : String.string) : str := String.list_ascii_of_string s.
Notation "$ s" := (lit s%string) (at level 2, only parsing).

(* str == str *)
Fixpoint str_eqb (a b : str) : bool :=
  match a, b with
  | [], [] => true
  | x :: a', y :: b' => Ascii.eqb x y && str_eqb a' b'
  | _, _ => false
  end.

(** [s in set_of_strings] *)
(* str in list, e.g. base.py:365-368 *)
Definition str_in (s : str) (l : list str) : bool := existsb (str_eqb s) l.

(** ASCII whitespace as removed by [str.strip()]: \t \n \v \f \r, 0x1c-0x1f, space. *)
(* str.strip: white space *)
Definition is_ws (c : ascii) : bool :=
  let n := nat_of_ascii c in
  ((9 <=? n) && (n <=? 13)) || ((28 <=? n) && (n <=? 32)).

(* str.strip, base.py:459 *)
Fixpoint lstrip (s : str) : str :=
  match s with [] => [] | c :: t => if is_ws c then lstrip t else s end.
(* str.strip, base.py:459 *)
Definition strip (s : str) : str := rev (lstrip (rev (lstrip s))).

(** [s.split(c)] for a one-character separator. *)
(* str.split(sep) with a one-character separator, base.py:459, 474, 487 *)
Fixpoint split1 (c : ascii) (s : str) : list str :=
  match s with
  | [] => [[]]
  | x :: t => if Ascii.eqb x c then [] :: split1 c t
              else match split1 c t with [] => [[x]] | h :: r => (x :: h) :: r end
  end.

(* str.startswith *)
Fixpoint prefixb (p s : str) : bool :=
  match p, s with
  | [], _ => true
  | x :: p', y :: s' => Ascii.eqb x y && prefixb p' s'
  | _, _ => false
  end.

(** [s.split(sep)] for a longer separator (leftmost, non-overlapping). *)
(* str.split(sep) with a longer separator, discretize.py:257 *)
Fixpoint split_sub_aux (sep : str) (skip : nat) (cur : str) (s : str) : list str :=
  match s with
  | [] => [rev cur]
  | c :: t =>
      match skip with
      | S k => split_sub_aux sep k cur t
      | O => if prefixb sep s
             then rev cur :: split_sub_aux sep (length sep - 1) [] t
             else split_sub_aux sep 0 (c :: cur) t
      end
  end.
(* str.split(sep), discretize.py:257 *)
Definition split_sub (sep s : str) : list str := split_sub_aux sep 0 [] s.

(** [s.replace(c, "")] and [s.replace(c, d)] for characters. *)
(* utils.py:8-12 [drop_chars], str.replace(c, '') *)
Definition del_char (c : ascii) (s : str) : str := filter (fun x => negb (Ascii.eqb x c)) s.
(* str.replace(c, d), base.py:83-92, 338-348 *)
Definition sub_char (c d : ascii) (s : str) : str := map (fun x => if Ascii.eqb x c then d else x) s.

(** [sep.join(parts)] *)
(* str.join *)
Fixpoint join (sep : str) (parts : list str) : str :=
  match parts with
  | [] => []
  | [p] => p
  | p :: rest => p ++ sep ++ join sep rest
  end.

(* one character *)
Definition ch (s : String.string) : ascii :=
  match lit s with c :: _ => c | [] => zero end.

(* c in s, e.g. check.py:101-106, base.py:458-479 *)
Definition has_char (c : ascii) (s : str) : bool := existsb (fun x => Ascii.eqb x c) s.

(** [repr(s)] of a str: quote choice and escapes. Bytes >= 128 are printed unchanged. *)
(* repr(str), used by str(list of strings): base.py:83-92 *)
Definition hexd (n : nat) : ascii :=
  ascii_of_nat (if n <? 10 then 48 + n else 87 + n).
(* repr(str), base.py:83-92 *)
Definition repr_char (q : ascii) (c : ascii) : str :=
  let n := nat_of_ascii c in
  if Ascii.eqb c q || (n =? 92) then [ascii_of_nat 92; c]
  else if n =? 9 then [ascii_of_nat 92; ch "t"]
  else if n =? 10 then [ascii_of_nat 92; ch "n"]
  else if n =? 13 then [ascii_of_nat 92; ch "r"]
  else if (n <? 32) || (n =? 127) then [ascii_of_nat 92; ch "x"; hexd (n / 16); hexd (n mod 16)]
  else [c].
(* repr(str), base.py:83-92 *)
Definition squote : ascii := ascii_of_nat 39.
(* repr(str), base.py:83-92 *)
Definition dquote : ascii := ascii_of_nat 34.
(* repr(str), base.py:83-92 *)
Definition repr_str (s : str) : str :=
  let q := if has_char squote s && negb (has_char dquote s) then dquote else squote in
  [q] ++ flat_map (repr_char q) s ++ [q].
(** [str(list_of_str)] *)
(* str(list), base.py:83-92 *)
Definition str_of_list (l : list str) : str :=
  $"[" ++ join ($", ") (map repr_str l) ++ $"]".

(** ** Decimal text *)

(* str(int) *)
Fixpoint uint_str (d : Decimal.uint) : str :=
  match d with
  | Decimal.Nil => []
  | Decimal.D0 r => ch "0" :: uint_str r | Decimal.D1 r => ch "1" :: uint_str r
  | Decimal.D2 r => ch "2" :: uint_str r | Decimal.D3 r => ch "3" :: uint_str r
  | Decimal.D4 r => ch "4" :: uint_str r | Decimal.D5 r => ch "5" :: uint_str r
  | Decimal.D6 r => ch "6" :: uint_str r | Decimal.D7 r => ch "7" :: uint_str r
  | Decimal.D8 r => ch "8" :: uint_str r | Decimal.D9 r => ch "9" :: uint_str r
  end.
(* str(int) *)
Definition n_str (n : N) : str := uint_str (N.to_uint n).
(* str(int) *)
Definition z_str (z : Z) : str :=
  if (z <? 0)%Z then ch "-" :: n_str (Z.abs_N z) else n_str (Z.abs_N z).

(** [str(float)] in positional notation for [m * 10^-k], k >= 1 (Python prints the shortest digits that
    round-trip; the model takes [m, k] to be those digits; exponent notation is not produced). *)
(* str(float) *)
Definition pad0 (len : nat) (s : str) : str := repeat (ch "0") (len - length s) ++ s.
(* str(float) *)
Definition dec_abs (n : N) (k : nat) : str :=
  let d := pad0 (S k) (n_str n) in firstn (length d - k) d ++ [ch "."] ++ skipn (length d - k) d.
(* str(float) *)
Definition sign_str (m : Z) : str := if (m <? 0)%Z then [ch "-"] else [].
(* str(float), discretize.py:236-242 *)
Definition dec_str (m : Z) (k : nat) : str := sign_str m ++ dec_abs (Z.abs_N m) k.
(** [str(float)] in exponent notation, as printed for very large and very small floats: 1e-05, 2.5e+16 *)
(* exponent form of str(float), discretize.py:244-279 *)
Definition mant_str (n : N) (k : nat) : str := if k =? 0 then n_str n else dec_abs n k.
(* exponent form of str(float), discretize.py:244-279 *)
Definition exp_str (m : Z) (k : nat) (e : Z) : str :=
  sign_str m ++ mant_str (Z.abs_N m) k ++ [ch "e"] ++
  [if (e <? 0)%Z then ch "-" else ch "+"] ++ pad0 2 (n_str (Z.abs_N e)).

(* float(str), discretize.py:244-252 *)
Definition digit_val (c : ascii) : option N :=
  let n := nat_of_ascii c in
  if (48 <=? n) && (n <=? 57) then Some (N.of_nat (n - 48)) else None.
(* float(str), discretize.py:244-252 *)
Definition is_digit (c : ascii) : bool := match digit_val c with Some _ => true | None => false end.

(* float(str), discretize.py:244-252 *)
Fixpoint digits_val (acc : N) (s : str) : option N :=
  match s with
  | [] => Some acc
  | c :: t => match digit_val c with Some d => digits_val (acc * 10 + d)%N t | None => None end
  end.

(** Values of [float(text)]. *)
(* the value of float(str), discretize.py:244-252 *)
Inductive fval := FFin (q : Q) | FPInf | FNInf | FNaN.

(* decimal scaling *)
Definition pow10 (k : nat) : positive := Pos.pow 10 (Pos.of_nat k).
(* decimal scaling *)
Definition pow10z (k : nat) : Z := (10 ^ Z.of_nat k)%Z.
(** the rational m * 10^-k *)
(* the rational value of a decimal *)
Definition qdec (m : Z) (k : nat) : Q := Qmake m (Z.to_pos (pow10z k)).

(* float('INF') is case-insensitive, discretize.py:244-252 *)
Definition lower (c : ascii) : ascii :=
  let n := nat_of_ascii c in if (65 <=? n) && (n <=? 90) then ascii_of_nat (n + 32) else c.

(** mantissa: digits [. digits] with at least one digit *)
(* float(str), discretize.py:244-252 *)
Definition parse_mant (s : str) : option Q :=
  match split1 (ch ".") s with
  | [i] => match i with [] => None | _ => option_map (fun n => inject_Z (Z.of_N n)) (digits_val 0 i) end
  | [i; f] => match i ++ f with [] => None
              | _ => option_map (fun n => qdec (Z.of_N n) (length f)) (digits_val 0 (i ++ f)) end
  | _ => None
  end.
(* float(str), discretize.py:244-252 *)
Definition parse_sign (s : str) : bool * str :=
  match s with
  | c :: t => if Ascii.eqb c (ch "-") then (true, t) else if Ascii.eqb c (ch "+") then (false, t) else (false, s)
  | [] => (false, [])
  end.
(* float(str), discretize.py:244-252 *)
Definition parse_exp (s : str) : option Z :=
  let '(neg, d) := parse_sign s in
  match d with [] => None
  | _ => option_map (fun n => if neg then (- Z.of_N n)%Z else Z.of_N n) (digits_val 0 d) end.

(** [float(s)]; [None] stands for ValueError. Underscores in numbers are not modelled. *)
(* float(str), discretize.py:244-252 *)
Definition parse_float (s0 : str) : option fval :=
  let '(neg, s) := parse_sign (strip s0) in
  let l := map lower s in
  if str_eqb l ($"inf") || str_eqb l ($"infinity") then Some (if neg then FNInf else FPInf)
  else if str_eqb l ($"nan") then Some FNaN
  else
    let fin q := Some (FFin (if neg then Qopp q else q)) in
    match split1 (ch "e") l with
    | [m] => match parse_mant m with Some q => fin q | None => None end
    | [m; e] => match parse_mant m, parse_exp e with
                | Some q, Some z => fin (q * Qpower (10#1) z)%Q
                | _, _ => None end
    | _ => None
    end.

(** ** Scalars *)

(** Cell values / condition values / column names. [PDec m k] is the float m*10^-k. [PNaN] also stands for None cells. *)
(* the values of cells, features and condition values *)
Inductive pyval := PStr (s : str) | PInt (z : Z) | PBool (b : bool) | PDec (m : Z) (k : nat) | PNaN.

(* numeric value of int / bool / float *)
Definition num_of (v : pyval) : option Q :=
  match v with
  | PInt z => Some (inject_Z z)
  | PBool b => Some (inject_Z (if b then 1 else 0)%Z)
  | PDec m k => Some (qdec m k)
  | _ => None
  end.

(** Python [==]: text with text, numbers (bool is an int) with numbers, nan equal to nothing. *)
(* Python ==, base.py:450-452 and everywhere values are compared *)
Definition py_eq (v w : pyval) : bool :=
  match v, w with
  | PStr a, PStr b => str_eqb a b
  | _, _ => match num_of v, num_of w with Some p, Some q => Qeq_bool p q | _, _ => false end
  end.

(* value != value *)
Definition is_nan (v : pyval) : bool := match v with PNaN => true | _ => false end.
(** equality used by [Series.unique()]: as [==], but nan is one value *)
(* equality used by pandas unique / Python sets (nan is one value), base_functions.py:694-711, base.py:158-170 *)
Definition uniq_eq (v w : pyval) : bool := py_eq v w || (is_nan v && is_nan w).

(** [str(v)] *)
(* str(value), base.py:435-436 *)
Definition py_str (v : pyval) : str :=
  match v with
  | PStr s => s
  | PInt z => z_str z
  | PBool true => $"True" | PBool false => $"False"
  | PDec m k => dec_str m k
  | PNaN => $"nan"
  end.

(** ** Lists *)

(** [l[:i]], [l[i:]] with Python's treatment of negative indices. *)
(* list indices counting from the end, base.py:185-205 *)
Definition norm_idx (i : Z) (n : nat) : nat :=
  if (i <? 0)%Z then Z.to_nat (Z.max 0 (Z.of_nat n + i)) else Z.to_nat i.
(* list[:n] *)
Definition take {A} (i : Z) (l : list A) : list A := firstn (norm_idx i (length l)) l.
(* list[n:] *)
Definition drop {A} (i : Z) (l : list A) : list A := skipn (norm_idx i (length l)) l.

(** [x in collection_of_labels] *)
(* label in set, catnap.py:59-123 *)
Definition nmem (x : nat) (l : list nat) : bool := existsb (Nat.eqb x) l.

(** first-occurrence de-duplication with respect to a boolean equality *)
(* pandas unique *)
Fixpoint dedup_by {A} (eqb : A -> A -> bool) (seen l : list A) : list A :=
  match l with
  | [] => []
  | a :: t => if existsb (fun b => eqb b a) seen then dedup_by eqb seen t
              else a :: dedup_by eqb (seen ++ [a]) t
  end.

(** Comparisons of optional integer limits: [lim is not None and x >= lim]. *)
(* n >= limit with limit None meaning no limit, base_functions.py:25-112, 798-802 *)
Definition ge_lim (x : nat) (lim : option Z) : bool :=
  match lim with None => false | Some m => (m <=? Z.of_nat x)%Z end.
(* n < limit with limit None meaning no limit, base_functions.py:25-112 *)
Definition lt_lim (x : nat) (lim : option Z) : bool :=
  match lim with None => false | Some m => (Z.of_nat x <? m)%Z end.
