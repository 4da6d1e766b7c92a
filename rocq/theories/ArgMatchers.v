(** Model of include/fakeit/argument_matchers.hpp and MatchersCollector.hpp. *)
From Coq Require Import Ascii String NArith ZArith Lia List.
From Coq Require Import Floats.SpecFloat.
From Verif Require Import Base CInt Values.
Import ListNotations.
Open Scope Z_scope.

(** The six operators: argument_matchers.hpp:101, 131, 161, 191, 221, 251 and, on the result of strcmp, 281-431. *)
Inductive rel : Type := REq | RGt | RGe | RLt | RLe | RNe.

(** The expected operand stored in a matcher: argument_matchers.hpp:39-55.
    [XVal v]: copied by value; [XArr s]: a char array (string literal) copied
    byte-wise into a buffer owned by the matcher. *)
Inductive expected : Type :=
| XVal (v : val)
| XArr (s : string).

(** Argument matchers.
    [AAny]: 59-77; [ACmp r e]: Eq 80-107, Gt 110-137, Ge 140-167, Lt 170-197,
    Le 200-227, Ne 230-257; [AStr r s]: StrEq 260-287, StrGt 290-317,
    StrGe 320-347, StrLt 350-377, StrLe 380-407, StrNe 410-437 (the operand [s] is a
    std::string, 535-593, whose c_str() strcmp reads);
    [AApprox e m]: ApproxEq 440-481. *)
Inductive amatcher : Type :=
| AAny
| ACmp (r : rel) (e : expected)
| AStr (r : rel) (s : string)
| AApprox (e margin : val).

(** Truth of a built-in comparison given the three-way result
    ([None]: unordered, i.e. an operand is NaN). The operators of argument_matchers.hpp:101, 131, 161, 191, 221, 251
    on built-in types. *)
Definition rel_holds (r : rel) (c : option comparison) : bool :=
  match r, c with
  | REq, Some Eq => true
  | RGt, Some Gt => true
  | RGe, Some Gt => true
  | RGe, Some Eq => true
  | RLt, Some Lt => true
  | RLe, Some Lt => true
  | RLe, Some Eq => true
  | RNe, Some Eq => false
  | RNe, _ => true
  | _, _ => false
  end.

(** false is less than true (both are promoted to int): argument_matchers.hpp:101-251. *)
Definition bool_compare (a b : bool) : comparison :=
  match a, b with
  | false, true => Lt
  | true, false => Gt
  | _, _ => Eq
  end.

(** std::string comparison: like strcmp but over the whole contents, embedded
    NUL characters included. operator== and so on of std::string in argument_matchers.hpp:101-251. *)
Fixpoint string_cmp (a b : string) : comparison :=
  match a, b with
  | EmptyString, EmptyString => Eq
  | EmptyString, String _ _ => Lt
  | String _ _, EmptyString => Gt
  | String ca a', String cb b' =>
      match N.compare (byte ca) (byte cb) with
      | Eq => string_cmp a' b'
      | c => c
      end
  end.

(** The part of a buffer before its first NUL: what a [const char*] denotes when
    turned into a std::string. For a std::string argument and an array operand: argument_matchers.hpp:48-55, 101. *)
Fixpoint cut_nul (s : string) : string :=
  match s with
  | EmptyString => EmptyString
  | String c s' => if N.eqb (byte c) 0 then EmptyString else String c (cut_nul s')
  end.

(** == of pointers: argument_matchers.hpp:101. *)
Definition ptr_eqb (p q : option addr) : bool :=
  match p, q with
  | None, None => true
  | Some a, Some b => Nat.eqb a b
  | _, _ => false
  end.

(** Pointers of different objects: == and != are defined, the order is
    unspecified (treated as undefined). argument_matchers.hpp:101-251. *)
Definition ptr_rel (r : rel) (same : bool) : outcome bool :=
  match r with
  | REq => Def same
  | RNe => Def (negb same)
  | RGe | RLe => if same then Def true else UB
  | RGt | RLt => if same then Def false else UB
  end.

(** [actual <op> expected] for operands of the same type.  Operands of different
    types (which C++ would convert, or refuse to compile) are not modelled and
    give [UB]; class types without order have == and != only. argument_matchers.hpp:101, 131, 161, 191, 221, 251. *)
Definition cmp_val (r : rel) (a e : val) : outcome bool :=
  match a, e with
  | VInt x, VInt y => Def (rel_holds r (Some (x ?= y)))
  | VDbl x, VDbl y => Def (rel_holds r (SFcompare x y))
  | VBool x, VBool y => Def (rel_holds r (Some (bool_compare x y)))
  | VChar x, VChar y => Def (rel_holds r (Some (char_value x ?= char_value y)))
  | VStr x, VStr y => Def (rel_holds r (Some (string_cmp x y)))
  | VCStr p, VCStr q => ptr_rel r (ptr_eqb p q)
  | VPtr p, VPtr q => ptr_rel r (ptr_eqb p q)
  | VOpaque x, VOpaque y =>
      match r with
      | REq => Def (Nat.eqb x y)
      | RNe => Def (negb (Nat.eqb x y))
      | _ => UB
      end
  | _, _ => UB
  end.

(** Comparison with an array operand: a std::string argument is compared with the
    C string in the buffer; a [const char*] argument is compared as a pointer
    with the address of the matcher's own buffer, which no caller can hold. argument_matchers.hpp:48-55, 101-251. *)
Definition cmp_arr (r : rel) (a : val) (s : string) : outcome bool :=
  match a with
  | VStr x => Def (rel_holds r (Some (string_cmp x (cut_nul s))))
  | VCStr _ => ptr_rel r false
  | _ => UB
  end.

(** std::abs(actual - expected) <= margin: argument_matchers.hpp:474-476, for
    [int] operands (overflow of the subtraction and std::abs(INT_MIN) are
    undefined) and for [double] operands. *)
Definition approx (a e m : val) : outcome bool :=
  match a, e, m with
  | VInt x, VInt y, VInt k =>
      let! d := isub x y in
      let! ad := (if d <? 0 then ineg d else Def d) in
      Def (ad <=? k)
  | VDbl x, VDbl y, VDbl k => Def (rel_holds RLe (SFcompare (SFabs (dsub x y)) k))
  | _, _, _ => UB
  end.

(** matches(actual) of each matcher; [a] is the (viewed) actual argument.
    The string matchers call strcmp on the argument pointer: a null pointer or a
    dead buffer is undefined behaviour. argument_matchers.hpp:66-68, 100-102, 130-132, 160-162, 190-192, 220-222,
    250-252, 280-282, 310-312, 340-342, 370-372, 400-402, 430-432, 474-476. *)
Definition am_matches (m : mem) (am : amatcher) (a : val) : outcome bool :=
  match am with
  | AAny => Def true
  | ACmp r (XVal v) => cmp_val r a v
  | ACmp r (XArr s) => cmp_arr r a s
  | AStr r s =>
      match a with
      | VCStr (Some p) =>
          let! c := load m p in
          match c with
          | VStr buf => Def (rel_holds r (Some (strcmp buf s)))
          | _ => UB
          end
      | _ => UB
      end
  | AApprox e k => approx a e k
  end.

(** ** MatchersCollector.hpp *)

(** One argument of Using(...): the wildcard [_] (69-75), a matcher creator
    (61-67) or a plain value (50-59). *)
Inductive using_arg : Type :=
| UWild
| UMatcher (am : amatcher)
| UValue (e : expected).

(** CollectMatchers of one argument: MatchersCollector.hpp:50-59 (a value), 61-67 (a matcher), 69-75 (_). *)
Definition collect_one (u : using_arg) : amatcher :=
  match u with
  | UWild => AAny
  | UMatcher am => am
  | UValue e => ACmp REq e
  end.

(** CollectMatchers(head, tail...): MatchersCollector.hpp:77-82: pushes the
    matcher of each position in order. *)
Fixpoint collect_matchers (acc : list amatcher) (us : list using_arg) : list amatcher :=
  match us with
  | [] => acc
  | u :: us' => collect_matchers (acc ++ [collect_one u]) us'
  end.
