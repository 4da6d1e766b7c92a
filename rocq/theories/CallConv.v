(** * Calling conventions: what a function in a table entry of a mock receives

    The library calls nothing through a type of its own: the compiled test calls
    [obj.method(args...)], the compiler places the object, the place for the
    result and the arguments by the method's type and the rules of the platform,
    jumps to the word in the table, and the function behind that word picks them
    up by ITS OWN type.  The library puts three kinds of functions into tables:

    - the proxies of stubbed methods, [R methodProxyX<id>(arglist...)], a member
      function of the method's own type (MethodProxyCreator.hpp:53-56, installed by
      DynamicProxy.hpp:104-109);
    - [void MockImpl::unmocked()] in every entry not mentioned, whatever the
      method's type (MockImpl.hpp:273-292);
    - for destructors [unmockedDtor] (MockImpl.hpp:271) or the proxy with id 0
      (member for gcc/clang, static for MSVC, DynamicProxy.hpp:111-125), with the helper
      [unsigned dtor(int)] in the entry of the deleting destructor (gcc/VirtualTable.hpp:95-115)
      resp. in the only entry (mscpp/VirtualTable.hpp:215-236).

    The rules of the platforms are modelled as far as they place the object, the
    address for a result returned in memory and the arguments in order.  Each
    argument is one word (a number, a reference, or the address of an object passed
    by value); floating point and vector registers, aggregates spread over several
    registers and the split between registers and stack are not modelled: on each
    of these platforms they do not move the object and the address of the result. *)
From Coq Require Import Bool NArith List Arith.
Import ListNotations.
Open Scope nat_scope.

(** The platforms: x86-64 System V (Linux, macOS), AArch64, 32-bit ARM, 32-bit x86
    Linux (gcc/clang), Windows 64 and 32 with gcc (MinGW), Windows 64 and 32 with MSVC. *)
Inductive abi := SysV64 | Aapcs64 | Aapcs32 | I386Gnu | MinGW64 | MinGW32 | MsX64 | MsX86.

(** MSVC or not: the #ifdef _MSC_VER of DynamicProxy.hpp:120-124 and of the choice
    between gcc/VirtualTable.hpp and mscpp/VirtualTable.hpp (VirtualTable.hpp:1-7). *)
Definition is_ms (a : abi) : bool := match a with MsX64 | MsX86 => true | _ => false end.

(** Result types: nothing, a number or pointer or reference, a class of so many
    bytes that is or is not trivially copyable (the Itanium ABI says: trivial for the
    purposes of calls).  The R of MethodProxyCreator.hpp:25-26, 53-56. *)
Inductive res := RVoid | RScalar | RClass (size : nat) (trivial : bool).

(** Parameters: a word, or an object of a class with a destructor passed by value.  The arglist of
    MethodProxyCreator.hpp:25-26, 53-56. *)
Inductive par := PWord | PObject.

(** Types of functions: member functions ([this] besides the parameters) and free ones
    (static member functions too).  MethodProxyCreator.hpp:53-56 (member), 67-70 (static); MockImpl.hpp:271-273. *)
Record ftype := mkFt { ft_member : bool; ft_res : res; ft_pars : list par }.

(** Sizes that MSVC returns in a register: 1, 2, 4 and 8 bytes. A rule of that platform, models no lines of /repo.
    *)
Definition power_size (n : nat) : bool := existsb (Nat.eqb n) [1; 2; 4; 8].

(** Whether a result is returned in memory whose address the caller passes.
    System V x86-64 3.2.3 and AAPCS64 6.9: classes of more than 16 bytes and non-trivial
    ones (classes of long double and homogeneous floating point aggregates are left out);
    AAPCS32 6.4: of more than 4 bytes; i386 Linux: all classes; MinGW and free functions of
    MSVC: all but trivial ones of 1, 2, 4, 8 bytes; member functions of MSVC: all classes. *)
Definition in_memory (a : abi) (f : ftype) : bool :=
  match ft_res f with
  | RVoid | RScalar => false
  | RClass n triv =>
      match a with
      | SysV64 | Aapcs64 => negb triv || (16 <? n)
      | Aapcs32 => negb triv || (4 <? n)
      | I386Gnu => true
      | MinGW64 | MinGW32 => negb triv || negb (power_size n)
      | MsX64 | MsX86 => ft_member f || negb triv || negb (power_size n)
      end
  end.

(** What is in the registers and on the stack when control is handed over: the ordered
    words (argument registers, then stack), the ECX of 32-bit Windows (thiscall), the X8
    of AArch64 (address of the result).  [None]: nothing was put there for this call. *)
Record frame := mkFrame { fr_words : list nat; fr_ecx : option nat; fr_x8 : option nat }.

(** A word that is passed or not. Models no lines of /repo. *)
Definition opt_list (o : option nat) : list nat := match o with Some w => [w] | None => [] end.

(** The caller: places object [this], address of the result [slot] and arguments.  The call in the code of the user;
    the callees are at MethodProxyCreator.hpp:53-56 and MockImpl.hpp:271-282. *)
Definition place (a : abi) (f : ftype) (this slot : nat) (args : list nat) : frame :=
  let hidden := if in_memory a f then Some slot else None in
  let self := if ft_member f then Some this else None in
  match a with
  | SysV64 | Aapcs32 | I386Gnu | MinGW64 => mkFrame (opt_list hidden ++ opt_list self ++ args) None None
  | Aapcs64 => mkFrame (opt_list self ++ args) None hidden
  | MinGW32 | MsX86 => mkFrame (opt_list hidden ++ args) self None
  | MsX64 => mkFrame (opt_list self ++ opt_list hidden ++ args) None None
  end.

(** What a function finds on entry. [None]: whatever happened to be there.  The parameters of
    MethodProxyCreator.hpp:53-56, 67-70 and MockImpl.hpp:271-273. *)
Record entered := mkEntered { en_this : option nat; en_slot : option nat; en_args : list (option nat) }.

(** The first n words, absent ones being whatever was there; for MethodProxyCreator.hpp:53-56. *)
Fixpoint take (n : nat) (l : list nat) : list (option nat) :=
  match n with
  | O => []
  | S n => match l with [] => None :: take n [] | w :: r => Some w :: take n r end
  end.

(** The next word, if the type says that there is one; for MethodProxyCreator.hpp:53-56. *)
Definition pop (b : bool) (l : list nat) : option nat * list nat :=
  if b then match l with [] => (None, []) | w :: r => (Some w, r) end else (None, l).

(** The callee: reads them back by its own type.  MethodProxyCreator.hpp:53-56, 67-70, MockImpl.hpp:271-273. *)
Definition enter (a : abi) (f : ftype) (fr : frame) : entered :=
  let n := length (ft_pars f) in
  match a with
  | SysV64 | Aapcs32 | I386Gnu | MinGW64 =>
      let (h, l) := pop (in_memory a f) (fr_words fr) in
      let (t, l) := pop (ft_member f) l in mkEntered t h (take n l)
  | Aapcs64 =>
      let (t, l) := pop (ft_member f) (fr_words fr) in
      mkEntered t (if in_memory a f then fr_x8 fr else None) (take n l)
  | MinGW32 | MsX86 =>
      let (h, l) := pop (in_memory a f) (fr_words fr) in
      mkEntered (if ft_member f then fr_ecx fr else None) h (take n l)
  | MsX64 =>
      let (t, l) := pop (ft_member f) (fr_words fr) in
      let (h, l) := pop (in_memory a f) l in mkEntered t h (take n l)
  end.

(** Objects passed by value are destroyed by the caller, except with MSVC: there the
    callee destroys its parameters, when it returns and when it throws. Positions.  A rule of the platform for the
    parameters of MethodProxyCreator.hpp:53-56. *)
Fixpoint objects_from (i : nat) (l : list par) : list nat :=
  match l with
  | [] => []
  | PObject :: r => i :: objects_from (S i) r
  | PWord :: r => objects_from (S i) r
  end.

(** Who destroys the arguments when [caller] calls a function of type [callee]: by that rule;
    MethodProxyCreator.hpp:53-56 against MockImpl.hpp:273-282. *)
Definition destroyed (a : abi) (caller callee : ftype) : list nat :=
  objects_from 0 (if is_ms a then ft_pars callee else ft_pars caller).

(** The functions in tables and in MSVC's cookie. *)
Inductive func :=
| FUnmocked                      (* MockImpl::unmocked *)
| FUnmockedDtor                  (* MockImpl::unmockedDtor *)
| FProxy (r : res) (ps : list par)  (* MethodProxyCreator<R, arglist...>::methodProxyX<id> *)
| FProxyStatic                   (* MethodProxyCreator<void>::methodProxyXStatic<0> *)
| FHelper.                       (* VirtualTable::dtor *)

(** Their own types (MockImpl.hpp:271,272; MethodProxyCreator.hpp:53,68; VirtualTable dtor:
    gcc 95, mscpp 216). The static proxy's first parameter is the object. *)
Definition ftype_of (g : func) : ftype :=
  match g with
  | FUnmocked | FUnmockedDtor => mkFt true RVoid []
  | FProxy r ps => mkFt true r ps
  | FProxyStatic => mkFt false RVoid [PWord]
  | FHelper => mkFt true RScalar [PWord]
  end.

(** The part of memory that matters: which address holds a mocked object (its first word
    leads to a table of the library with that mock's cookies).  getVTable and getCookie: gcc/VirtualTable.hpp:20-29,
    MethodProxyCreator.hpp:16-21, MockImpl.hpp:262-267. *)
Definition memory := nat -> option nat.

(** What a call comes to: the report of an unmocked method of the mock [m] (an exception),
    the stubbings of the mock [m] with the address for the result and the arguments, a
    destructor that does nothing, or undefined behaviour (a pointer is read from memory
    that holds no mocked object, or from a register nobody set).  MockImpl.hpp:271-282,
    MethodProxyCreator.hpp:44-56. *)
Inductive reached :=
| Reports (m : nat)
| Handles (m : nat) (slot : option nat) (args : list (option nat))
| Nothing
| Undefined.

(** getMockImpl(this) (MockImpl.hpp:258-263) and getInvocationHandlerCollection
    (MethodProxyCreator.hpp:16-21): *)
Definition mock_at (mem : memory) (this : option nat) : option nat :=
  match this with Some p => mem p | None => None end.

(** The bodies, the helper apart: [unmocked] MockImpl.hpp:272-279, [unmockedDtor] 270 (does not
    touch [this]), methodProxyX / methodProxyXStatic MethodProxyCreator.hpp:44-70. *)
Definition body (mem : memory) (g : func) (e : entered) : reached :=
  match g with
  | FUnmocked => match mock_at mem (en_this e) with Some m => Reports m | None => Undefined end
  | FUnmockedDtor => Nothing
  | FProxy _ _ => match mock_at mem (en_this e) with Some m => Handles m (en_slot e) (en_args e) | None => Undefined end
  | FProxyStatic =>
      match en_args e with
      | t :: r => match mock_at mem t with Some m => Handles m (en_slot e) r | None => Undefined end
      | [] => Undefined
      end
  | FHelper => Undefined
  end.

(** A call of a function [g] by a caller that believes in the type [f].  MethodProxyCreator.hpp:44-70,
    MockImpl.hpp:271-282, gcc/VirtualTable.hpp:95-104. *)
Definition call_as (a : abi) (mem : memory) (f : ftype) (g : func) (this slot : nat) (args : list nat) : reached :=
  body mem g (enter a (ftype_of g) (place a f this slot args)).

(** A virtual call [obj.method(args...)] whose entry holds [g].  The entries are set at DynamicProxy.hpp:104-125,
    222-232 and MockImpl.hpp:284-292. *)
Definition vcall (a : abi) (mem : memory) (r : res) (ps : list par) (g : func) (this slot : nat) (args : list nat) : reached :=
  call_as a mem (mkFt true r ps) g this slot args.

(** stubDtor, DynamicProxy.hpp:111-125: which proxy is installed. *)
Definition dtor_proxy (a : abi) : func := if is_ms a then FProxyStatic else FProxy RVoid [].

(** VirtualTable::dtor (gcc 95-104, mscpp 216-224): the word of the complete-object destructor
    entry resp. of the cookie is called as [void( * )(C* )] with [this]. [flag]: 1 for the
    deleting destructor (MSVC), not passed at all by gcc (the parameter has no name and is
    not read). *)
Definition helper (a : abi) (mem : memory) (inner : func) (e : entered) : reached :=
  match en_this e with
  | Some p => match mem p with
              | Some _ => call_as a mem (mkFt false RVoid [PWord]) inner 0 0 [p]
              | None => Undefined
              end
  | None => Undefined
  end.

(** [delete p] and [p->~C()], [inner] being the function given to setDtor
    (gcc 107-115, mscpp 226-236). gcc and clang call the deleting entry (the helper) resp. the
    other entry ([inner] itself) without arguments; MSVC calls the helper with a flag. *)
Definition delete_call (a : abi) (mem : memory) (inner : func) (this : nat) : reached :=
  let f := mkFt true (if is_ms a then RScalar else RVoid) (if is_ms a then [PWord] else []) in
  helper a mem inner (enter a (ftype_of FHelper) (place a f this 0 (if is_ms a then [1] else []))).

(** delete of the object: the helper VirtualTable::dtor, which calls [inner] as a free function:
    gcc/VirtualTable.hpp:95-115. *)
Definition dtor_call (a : abi) (mem : memory) (inner : func) (this : nat) : reached :=
  if is_ms a
  then helper a mem inner (enter a (ftype_of FHelper) (place a (mkFt true RScalar [PWord]) this 0 [0]))
  else call_as a mem (mkFt true RVoid []) inner this 0 [].

(** Objects passed by value that nobody destroys, when the entry holds [g].  MockImpl.hpp:271-282 in place of the
    method. *)
Definition left_over (a : abi) (r : res) (ps : list par) (g : func) : list nat :=
  let caller := mkFt true r ps in
  filter (fun i => negb (existsb (Nat.eqb i) (destroyed a caller (ftype_of g)))) (objects_from 0 ps).
