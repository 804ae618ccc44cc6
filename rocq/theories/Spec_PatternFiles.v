(** What the property C122 speaks about: the spatial series of a data set. *)
From Coq Require Import List Arith.
From Verif Require Import Base_Prelude Model_Parser Spec_Parser Spec_Emva.
Import ListNotations.

(** The bright and the dark spatial entry of a descriptor. *)
Definition spatial_pair (es : list entry) (b d : entry) : Prop :=
  In b es /\ In d es /\ spatial_entry b /\ spatial_entry d /\ ~ dark_entry b /\ dark_entry d.
