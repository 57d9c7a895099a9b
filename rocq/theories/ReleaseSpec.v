(** Comparing the two builds: the release build may do anything where the debug
    build panics, and the same as the debug build everywhere else. *)
From Verif Require Import Base.

Definition same_unless_panic {X} (debug release : outcome X) : Prop := debug = Panic \/ release = debug.
