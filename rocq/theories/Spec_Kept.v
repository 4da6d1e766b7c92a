(** What a test with kept method expressions tells, read off its text: nothing here refers to the
    records of the library.  [h] is the test so far, the newest statement first. *)
From Coq Require Import Bool String NArith Arith Lia List.
From Verif Require Import Base Kept.
Import ListNotations.
Open Scope list_scope.
Open Scope nat_scope.

Section Spec.
Variable A : Type.
Variable show : A -> string.
Variable cname : nat -> nat -> string.
Variable around : nat -> bool.
Notation op := (kop A).

Definition same (m k m' k' : nat) : bool := Nat.eqb m m' && Nat.eqb k k'.

(** The expressions that were written: mock, method, condition. *)
Fixpoint written (h : list op) : list (nat * nat * cond A) :=
  match h with
  | [] => []
  | KMention _ m k _ _ c :: r => written r ++ [(m, k, c)]
  | _ :: r => written r
  end.

Definition about (h : list op) (e m k : nat) : bool :=
  match nth_error (written h) e with Some (m', k', _) => same m k m' k' | None => false end.

Definition accepts (h : list op) (e : nat) (a : A) : bool :=
  match nth_error (written h) e with Some (_, _, c) => c_ok A c a | None => false end.

(** The stubbings of a method that are in force: those since the last Reset. *)
Fixpoint stubs (h : list op) (m k : nat) : list nat :=
  match h with
  | [] => []
  | KReset _ m' :: r => if Nat.eqb m m' then [] else stubs r m k
  | KFake _ e :: r => if about r e m k then e :: stubs r m k else stubs r m k
  | _ :: r => stubs r m k
  end.

(** The newest of them that accepts the call answers it. *)
Definition answer (h : list op) (m k : nat) (a : A) : option nat := find (fun e => accepts h e a) (stubs h m k).

Definition answered (h : list op) (m k : nat) (a : A) : bool := existsb (fun e => accepts h e a) (stubs h m k).

(** The calls that the history holds, oldest first, each with whether it was verified. *)
Record rec : Type := mkRec { r_mock : nat; r_slot : nat; r_args : A; r_seen : bool }.

Definition hit (h : list op) (e : nat) (c : rec) : bool :=
  about h e (r_mock c) (r_slot c) && accepts h e (r_args c).

Definition count (h : list op) (e : nat) (cs : list rec) : nat := length (filter (hit h e) cs).

Definition enough (q : kquant) (n : nat) : Prop := match q with Exactly x => n = x | AtLeast x => x <= n end.

Definition enough_b (q : kquant) (n : nat) : bool := match q with Exactly x => n =? x | AtLeast x => x <=? n end.

Fixpoint history (h : list op) : list rec :=
  match h with
  | [] => []
  | KReset _ m :: r | KClear _ m :: r => filter (fun c => negb (r_mock c =? m)) (history r)
  | KCall _ m k a :: r => if answered r m k a then history r ++ [mkRec m k a false] else history r
  | KVerify _ e q :: r =>
      if enough_b q (count r e (history r))
      then map (fun c => mkRec (r_mock c) (r_slot c) (r_args c) (hit r e c || r_seen c)) (history r)
      else history r
  | _ :: r => history r
  end.

Definition on_mock (m : nat) (cs : list rec) : list rec := filter (fun c => r_mock c =? m) cs.

(** Whether the library keeps a record of a method: since the last Reset it was written, stubbed, or
    looked at by a verification.  Verify looks if there is a call of the mock to compare with, or a
    report to write. *)
Fixpoint known (h : list op) (m k : nat) : bool :=
  match h with
  | [] => false
  | KReset _ m' :: r => if Nat.eqb m m' then false else known r m k
  | KMention _ m' k' _ _ _ :: r => same m k m' k' || known r m k
  | KFake _ e :: r | KNoOther _ e :: r => about r e m k || known r m k
  | KVerify _ e q :: r =>
      (about r e m k &&
       (negb (enough_b q (count r e (history r))) || negb (length (on_mock m (history r)) =? 0)))
      || known r m k
  | _ :: r => known r m k
  end.

(** The name of a method in reports: as it was written last since the last Reset, otherwise the
    compiler's name. *)
Fixpoint name (h : list op) (m k : nat) : string :=
  match h with
  | [] => cname m k
  | KReset _ m' :: r => if Nat.eqb m m' then cname m k else name r m k
  | KMention _ m' k' mock method _ :: r => if same m k m' k' then (mock ++ "." ++ method)%string else name r m k
  | _ :: r => name r m k
  end.

(** What the next statement tells, when [nm] are the names of the methods. *)
Section Names.
Variable nm : list op -> nat -> nat -> string.

Definition text (h : list op) (c : rec) : string := (nm h (r_mock c) (r_slot c) ++ show (r_args c))%string.

Definition tells_by (h : list op) (o : op) : kres :=
  match o with
  | KMention _ _ _ _ _ _ | KFake _ _ | KReset _ _ | KClear _ _ => KDone
  | KCall _ m k a =>
      match answer h m k a with Some e => KAnswered e | None =>
      if known h m k then KUnexpected true (nm h m k ++ show a)%string
      else if around m then KOriginal
      else KUnexpected false "unknown()"%string
      end
  | KVerify _ e q =>
      match nth_error (written h) e with
      | None => KDone
      | Some (m, k, c) =>
          if enough_b q (count h e (history h)) then KPassed
          else KFailed (nm h m k ++ c_text A c)%string (count h e (history h)) (map (text h) (on_mock m (history h)))
      end
  | KNoOther _ e =>
      match filter (fun c => hit h e c && negb (r_seen c)) (history h) with
      | [] => KPassed
      | more => KMore (map (text h) more)
      end
  end.

(** A whole test. *)
Fixpoint story_by (h : list op) (os : list op) : list kres :=
  match os with
  | [] => []
  | o :: r => tells_by h o :: story_by (o :: h) r
  end.
End Names.

Definition tells := tells_by name.
Definition story := story_by name.

(** The name of a method as the test wrote it last, whatever happened since. *)
Fixpoint spoken (h : list op) (m k : nat) : string :=
  match h with
  | [] => ""%string
  | KMention _ m' k' mock method _ :: r => if same m k m' k' then (mock ++ "." ++ method)%string else spoken r m k
  | _ :: r => spoken r m k
  end.

(** A test that uses every expression before the next Reset of its mock. *)
Fixpoint recent (h : list op) (e : nat) : bool :=
  match h with
  | [] => false
  | KMention _ _ _ _ _ _ :: r => (e =? length (written r)) || recent r e
  | KReset _ m :: r => recent r e && match nth_error (written r) e with Some (m', _, _) => negb (m =? m') | None => false end
  | _ :: r => recent r e
  end.

Fixpoint prompt (h : list op) (os : list op) : bool :=
  match os with
  | [] => true
  | o :: r => (match o with KFake _ e | KVerify _ e _ | KNoOther _ e => recent h e | _ => true end) && prompt (o :: h) r
  end.

(** The rules.  An expression is stubbed at most once, and not verified once a Reset has undone that
    stubbing; every expression that is used was written before.  AtLeast(0) is not asked for (C35). *)
Definition stubbed (h : list op) (e : nat) : bool :=
  existsb (fun o => match o with KFake _ e' => e =? e' | _ => false end) h.

Definition in_force (h : list op) (e : nat) : bool :=
  match nth_error (written h) e with Some (m, k, _) => existsb (Nat.eqb e) (stubs h m k) | None => false end.

Definition allowed (h : list op) (o : op) : bool :=
  match o with
  | KFake _ e => (e <? length (written h)) && negb (stubbed h e)
  | KVerify _ e (AtLeast 0) => false
  | KVerify _ e _ | KNoOther _ e => (e <? length (written h)) && (negb (stubbed h e) || in_force h e)
  | _ => true
  end.

Fixpoint keeps (h : list op) (os : list op) : bool :=
  match os with
  | [] => true
  | o :: r => allowed h o && keeps (o :: h) r
  end.

End Spec.
