(** C01, C18: histories of calls. *)
From stdpp Require Import list.
From Coq Require Import ZArith.
From Verif Require Import Base Slots Tree Remove Iterators Observe BulkLoad History Spec Augment
  Instances HistTop.

(** The examples are computed in the dev profile. *)
Local Existing Instance dev_build.

Theorem history_refines {K V A} {KO : KeyOps K} {PF : Profile} {OL : OrdLaws K} {AO : AugOps K V A}
    (b : start K V) (ops : list (op K V)) :
  legal (A:=A) b ops ->
  exists T, exec (A:=A) b ops = Ok ((spec_exec b ops).1, T) /\ entries T = Ok (spec_exec b ops).2.
Proof. exact (history_ok b ops). Qed.
Print Assumptions history_refines.

Local Instance ex_aug : AugOps Z Z nat := count_aug.
Example history_refines_ex :
  let ops := zinserts (zseq 0 200) ++ zremoves (zseq 50 120) ++ [OLen; OFirst; OGet (probe_key 180%Z); OIterRev] in
  legal (A:=nat) SNew ops /\
  drop 320 (spec_exec SNew ops).1 = [RNum 80; REntry (Some (0, 0)%Z); RVal (Some 1800%Z); RList (rev ex_list)].
Proof.
  split; [split|].
  - done.
  - rewrite !Forall_app. split_and!.
    + apply Forall_map, Forall_forall. done.
    + apply Forall_map, Forall_forall. intros x _. apply HistTop.probe_key_legal.
    + repeat constructor; apply HistTop.probe_key_legal.
  - apply HistProof.fits_short. vm_compute. done.
  - intros _. by left.
  - by apply HistProof.drops_none.
  - vm_compute. done.
Qed.
