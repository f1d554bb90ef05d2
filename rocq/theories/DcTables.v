(* Generated by tools/gen_tables.py from src/data/dc_octree.cpp; do not edit. *)
From Coq Require Import List.
Import ListNotations.

(* src/data/dc_octree.cpp:420-437 *)
Definition isManifold : list bool :=
  [true; true; true; true; true; false; true; true; true; true; false; true; true; true; true; true;
   true; true; false; true; false; false; false; true; false; true; false; true; false; true; false; true;
   true; false; true; true; false; false; true; true; false; false; false; true; false; false; true; true;
   true; true; true; true; false; false; true; true; false; true; false; true; false; false; false; true;
   true; false; false; false; true; false; true; true; false; false; false; false; true; true; true; true;
   false; false; false; false; false; false; false; false; false; false; false; false; false; false; false; false;
   true; false; true; true; true; false; true; true; false; false; false; false; true; false; true; true;
   true; true; true; true; true; false; true; true; false; false; false; false; false; false; false; true;
   true; false; false; false; false; false; false; false; true; true; false; true; true; true; true; true;
   true; true; false; true; false; false; false; false; true; true; false; true; true; true; false; true;
   false; false; false; false; false; false; false; false; false; false; false; false; false; false; false; false;
   true; true; true; true; false; false; false; false; true; true; false; true; false; false; false; true;
   true; false; false; false; true; false; true; false; true; true; false; false; true; true; true; true;
   true; true; false; false; true; false; false; false; true; true; false; false; true; true; false; true;
   true; false; true; false; true; false; true; false; true; false; false; false; true; false; true; true;
   true; true; true; true; true; false; true; true; true; true; false; true; true; true; true; true].
