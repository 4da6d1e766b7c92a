(** What users expect of a mock that is used in several source files: a call reaches the
    stubbings of the called method once that method was mentioned. *)
From Coq Require Import Bool ZArith List.
From Verif Require Import SourceFiles.
Import ListNotations.
Open Scope nat_scope.

(** The methods mentioned since the last Reset decide; nothing else does. *)
Fixpoint expected (files : list source) (mentioned : list nat) (l : list event) : list reached :=
  match l with
  | [] => []
  | Mention o :: r =>
      expected files (match designates files o with Some s => s :: mentioned | None => mentioned end) r
  | CallOf s :: r => (if existsb (Nat.eqb s) mentioned then StubbingsOf s else Unstubbed) :: expected files mentioned r
  | ResetAll :: r => expected files [] r
  end.

(** The mentions a test executes. *)
Definition executes (l : list event) (o : occ) : Prop := In (Mention o) l.

(** Nothing but entries of the class is called or mentioned. *)
Definition within (size : nat) (files : list source) (l : list event) : Prop :=
  (forall s, In (CallOf s) l -> s < size) /\
  (forall o s, executes l o -> designates files o = Some s -> s < size).

(** Compilers do not count further than this. *)
Definition countable (l : list event) : Prop :=
  forall o, executes l o -> (Z.of_nat (oc_pos o) < 2147483646)%Z.

(** Expansions with the same number, in whatever files, designate the same method. *)
Definition no_clash (files : list source) (l : list event) : Prop :=
  forall o o' s s', executes l o -> executes l o' -> designates files o = Some s -> designates files o' = Some s' ->
    oc_pos o = oc_pos o' -> s = s'.

(** No occurrence of a file stands for several methods. *)
Definition plain (f : source) : Prop := forall pos l, nth_error f pos = Some (Mentions l) -> length l <= 1.
