(** Properties C104, C105 and C106: what reports show for arguments of each type. *)
From Coq Require Import Bool Ascii String ZArith Lia List.
From Verif Require Import Base Shown Spec_Shown ShownProofs.
Import ListNotations.
Open Scope nat_scope.

(** For the examples: numbers below 3 and two addresses; a memory with a text, bytes without a NUL, and a buffer. *)
Definition num (z : Z) : string := if Z.eqb z 1 then "1" else if Z.eqb z 2 then "2" else "0".
Definition addr (p : option nat) : string := match p with None => "0" | Some 1 => "0x1" | Some _ => "0x2" end.
Definition mem (a : nat) : option cell :=
  match a with
  | 1 => Some (CChars ("hi" ++ String zero "x"))
  | 2 => Some (CChars "raw")
  | 3 => Some (CBuffer "left")
  | _ => None
  end%string.
Notation shows v p t x := (format num addr mem (format_of v p t) x).

(** The text that a report shows for an argument is the one of the table [looks], for every type, way of passing,
    version of C++, value and memory (and the report is undefined if there is none). *)
Theorem C104_texts show_number show_address v p t m x text :
  ty_ok v t -> format_of v p t <> NotCompiled -> has_type t x ->
  (format show_number show_address m (format_of v p t) x = Def text <->
   text_of show_number show_address m (looks v t) x text).
Proof. exact (shown_text show_number show_address v p t m x text). Qed.

(** Numbers, words and quoted characters; addresses; texts; a class that converts to a number, and one that does not. *)
Example C104_texts_example :
  ty_ok Cpp11 (TClass None (Some (SArith Long))) /\ format_of Cpp11 ByValue (TClass None (Some (SArith Long))) <> NotCompiled /\
  has_type (TClass None (Some (SArith Long))) (VNumber 2) /\
  shows Cpp11 ByValue (TClass None (Some (SArith Long))) (VNumber 2) = Def "2"%string /\
  shows Cpp11 ByValue (TClass None None) (VText "unseen") = Def "?"%string /\
  shows Cpp17 (ByReference false) (TScalar (SArith Bool)) (VNumber 1) = Def "true"%string /\
  shows Cpp17 ByValue (TScalar (SArith Char)) (VNumber 97) = Def "'a'"%string /\
  shows Cpp20 ByValue (TScalar (SPtr true false (OfArith Char))) (VPtr (Some 1)) = Def """hi"""%string /\
  shows Cpp20 ByValue (TScalar (SPtr true false (OfArith Char))) (VPtr None) = Def "[nullptr]"%string /\
  shows Cpp20 ByValue (TScalar (SPtr true false (OfArith Int))) (VPtr (Some 1)) = Def "0x1"%string.
Proof. split; [discriminate|]. repeat split; discriminate || (vm_compute; reflexivity). Qed.

(** Not every argument is shown by its value: numbers of type unsigned char (std::uint8_t) are shown as a character
    without quotes. *)
Theorem C104_bytes_refuted : ~ (forall show_number show_address v t m z, ty_ok v t -> has_type t (VNumber z) ->
  t <> TScalar (SArith Bool) -> t <> TScalar (SArith Char) -> format_of v ByValue t <> NotCompiled ->
  format show_number show_address m (format_of v ByValue t) (VNumber z) = Def (show_number z)).
Proof.
  intros H. specialize (H (fun _ => "7"%string) addr Cpp17 (TScalar (SArith UChar)) mem 7%Z).
  vm_compute in H. assert (E := H ltac:(discriminate) eq_refl ltac:(discriminate) ltac:(discriminate) ltac:(discriminate)).
  discriminate E.
Qed.

(** Nor are different arguments always shown differently: function pointers, pointers to members and, before C++23,
    pointers to volatile objects are shown as "1". *)
Theorem C104_distinct_refuted : exists v t x y, ty_ok v t /\ has_type t x /\ has_type t y /\ x <> y /\
  (forall show_number show_address m, exists s,
     format show_number show_address m (format_of v ByValue t) x = Def s /\
     format show_number show_address m (format_of v ByValue t) y = Def s).
Proof.
  exists Cpp20, (TScalar (SPtr false false OfFunction)), (VPtr (Some 1)), (VPtr (Some 2)).
  split; [exact Logic.I|]. split; [exact Logic.I|]. split; [exact Logic.I|]. split; [discriminate|].
  intros n a m. exists "1"%string. split; vm_compute; reflexivity.
Qed.

(** Stubbing a method compiles unless a parameter is a reference to a volatile object or, since C++20, a wide
    character or a pointer to wide characters. *)
Theorem C105_compiles v p t : ty_ok v t ->
  (format_of v p t = NotCompiled <-> p = ByReference true \/ looks v t = Nothing).
Proof. exact (compiles v p t). Qed.

Example C105_compiles_example : ty_ok Cpp20 (TScalar (SPtr true false (OfArith WChar))) /\
  looks Cpp20 (TScalar (SPtr true false (OfArith WChar))) = Nothing /\
  looks Cpp17 (TScalar (SPtr true false (OfArith WChar))) = Address /\
  looks Cpp20 (TScalar (SEnum false true WChar)) = Mark /\
  looks Cpp20 (TScalar (SArith Char32)) = Nothing.
Proof. split; [discriminate|]. repeat split. Qed.

(** So a test that compiles as C++17 need not compile as C++20. *)
Theorem C105_refuted : exists p t, ty_ok Cpp17 t /\ ty_ok Cpp20 t /\
  format_of Cpp17 p t <> NotCompiled /\ format_of Cpp20 p t = NotCompiled.
Proof.
  exists ByValue, (TScalar (SPtr true false (OfArith WChar))). split; [discriminate|]. split; [discriminate|].
  split; [discriminate|vm_compute; reflexivity].
Qed.

(** Making a report looks at nothing but the argument, and is defined whatever pointers lead to, except for pointers
    to char, signed char and unsigned char, and to stream buffers, and classes that convert to such pointers. *)
Theorem C106_harmless show_number show_address v p t m x :
  ty_ok v t -> format_of v p t <> NotCompiled -> has_type t x -> reads v t = false ->
  exists text, format show_number show_address m (format_of v p t) x = Def text.
Proof. exact (harmless show_number show_address v p t m x). Qed.

(** For each of those types there is an argument with which making a report is undefined. *)
Theorem C106_harmful show_number show_address v p t : ty_ok v t -> format_of v p t <> NotCompiled -> reads v t = true ->
  exists m x, has_type t x /\ format show_number show_address m (format_of v p t) x = UB.
Proof. exact (harmful show_number show_address v p t). Qed.

(** A dangling pointer to a number is harmless. *)
Example C106_harmless_example : reads Cpp17 (TScalar (SPtr false false (OfArith Int))) = false /\
  shows Cpp17 ByValue (TScalar (SPtr false false (OfArith Int))) (VPtr (Some 7)) = Def "0x2"%string /\
  reads Cpp17 (TScalar (SPtr true false (OfArith UChar))) = true /\
  shows Cpp17 ByValue (TScalar (SPtr true false (OfArith UChar))) (VPtr (Some 1)) = Def "hi"%string.
Proof. repeat split; vm_compute; reflexivity. Qed.

(** A buffer of bytes (const std::uint8_t* ) that has no zero among its bytes, and a null pointer to bytes. *)
Theorem C106_refuted : exists m x y, (exists a, x = VPtr (Some a) /\ m a = Some (CChars "raw")) /\ y = VPtr None /\
  has_type (TScalar (SPtr true false (OfArith UChar))) x /\ has_type (TScalar (SPtr true false (OfArith UChar))) y /\
  forall show_number show_address v,
    format show_number show_address m (format_of v ByValue (TScalar (SPtr true false (OfArith UChar)))) x = UB /\
    format show_number show_address m (format_of v ByValue (TScalar (SPtr true false (OfArith UChar)))) y = UB.
Proof.
  exists mem, (VPtr (Some 2)), (VPtr None).
  split; [exists 2; split; reflexivity|]. split; [reflexivity|]. split; [exact Logic.I|]. split; [exact Logic.I|].
  intros n a v. destruct v; split; vm_compute; reflexivity.
Qed.

Definition P_Shown_all := (C104_texts, C104_bytes_refuted, C104_distinct_refuted, C105_compiles, C105_refuted,
  C106_harmless, C106_harmful, C106_refuted).
Print Assumptions P_Shown_all.
