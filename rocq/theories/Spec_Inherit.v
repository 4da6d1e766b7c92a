(** Specification: shapes of class hierarchies. *)
From Coq Require Import Bool List Arith.
From Verif Require Import Inherit.
Import ListNotations.

(** No class among [c] and its bases has two direct bases. *)
Inductive chain : cls -> Prop :=
| chain_root n v w : chain (Cls n [] v w)
| chain_base n virt b v w : chain b -> chain (Cls n [(virt, b)] v w).

(** The path from [c] along direct bases that are not virtual ends at [b]. *)
Inductive leads : cls -> list nat -> cls -> Prop :=
| leads_here c : leads c [] c
| leads_on c i b path d : nth_error (bases_of c) i = Some (false, b) -> leads b path d -> leads c (i :: path) d.

(** Neither [c] nor any of its bases has a virtual base. *)
Inductive plain : cls -> Prop :=
| plain_bases n bs v w : Forall (fun x => fst x = false /\ plain (snd x)) bs -> plain (Cls n bs v w).

(** Whether the part of [size] words from [start] on has the word [a]: 1 or 0. *)
Definition covers (start size a : nat) : nat := if (start <=? a) && (a <? start + size) then 1 else 0.

(** The number of parts of an object of class [c] that have the word [a]: its own table pointer, if
    no base provides one, its bases that are not virtual, and its own data at the end. *)
Definition parts_at (c : cls) (a : nat) : nat :=
  match c with
  | Cls _ bs _ w =>
      (if dynamic c && (match primary bs with None => true | _ => false end) then covers 0 1 a else 0) +
      list_sum (map (fun i => match nth_error bs i with
                              | Some (false, b) => covers (base_offset c i) (words_of b) a
                              | _ => 0
                              end) (seq 0 (length bs))) +
      covers (words_of c - w) w a
  end.

(** A base that is not nearly empty: one without virtual methods or with data. *)
Definition ample (c : cls) : Prop := dynamic c = false \/ 2 <= words_of c.
