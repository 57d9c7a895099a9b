(** Threads that share a tree. *)
From Coq Require Import ZArith.
From stdpp Require Import list relations.
From Verif Require Import Base Slots BinSearch Store Tree Cursor Observe History Spec Contents Augment Shared SharedSpec Instances HistTop SharedProof.

(** The examples are computed in the dev profile. *)
Local Existing Instance dev_build.

Local Instance ex_aug : AugOps Z Z nat := count_aug.

(** C60: every thread runs a program of its own, choosing its calls by the answers
    it got; steps interleave in any way, and the cached leaf is read and written by
    all of them.  A thread that is done has the result it would have got alone,
    which is right for the stored entries; none crashes; one that is not done can
    go on; and no schedule runs forever. *)
Theorem shared_programs {K V A} {KO : KeyOps K} {PF : Profile} {OL : OrdLaws K} {AO : AugOps K V A} {R}
    (b : start K V) (T : tree K V A) l w (Ps : list (prog K V R)) seen ths :
  reachable b T l -> Forall (prog_ok l) Ps ->
  rtc (threads_step T) ([w], map ThRun Ps) (seen, ths) ->
  length ths = length Ps /\
  (forall i P r, Ps !! i = Some P -> ths !! i = Some (ThRun (PRet r)) -> run_alone T P = Ok r /\ means l P r) /\
  (forall i th, ths !! i = Some th -> th <> ThCrash /\
    ((exists r, th = ThRun (PRet r)) \/ exists seen' th', thread_step T seen th seen' th')) /\
  Acc (flip (threads_step T)) (seen, ths).
Proof. exact (shared_top b T l w Ps seen ths). Qed.
Print Assumptions shared_programs.

(** one thread looks up 180 and steps a stale cursor from there; the other reads
    the first entry and then looks up its key's double *)
Definition sh_a : prog Z Z (option Z * option (Z * Z)) :=
  PGet (probe_key 180%Z) (fun o =>
  PCall (CNext (mkCursor 180%Z 77 5)) (fun x =>
  PRet (o, match x with XCursor r => shown r | _ => None end))).
Definition sh_b : prog Z Z (option Z * option (Z * Z)) :=
  PCall CFirst (fun x =>
  match x with
  | XEntry (Some e) => PGet (probe_key (2 * e.1)%Z) (fun o => PRet (o, Some e))
  | _ => PRet (None, None)
  end).
Example shared_programs_ex :
  reachable (A:=nat) SNew ex_tree ex_list /\ Forall (prog_ok ex_list) [sh_a; sh_b] /\
  exists seen ra rb, rtc (threads_step (A:=nat) ex_tree) ([Some 1], map ThRun [sh_a; sh_b])
    (seen, [ThRun (PRet ra); ThRun (PRet rb)]) /\
    run_alone (A:=nat) ex_tree sh_a = Ok ra /\ run_alone (A:=nat) ex_tree sh_b = Ok rb /\ is_Some ra.1 /\ is_Some rb.1.
Proof.
  split; [by apply ex_reachable|]. split.
  { constructor; [|constructor; [|done]].
    - constructor; [apply probe_key_legal|]. intros r. constructor; [done|]. intros x. constructor.
    - constructor; [done|]. intros x. destruct x as [| | |[e|]| |]; try constructor; [apply probe_key_legal|].
      intros r. constructor. }
  assert (exists i1 i2 o1 o2 e x,
    check_cache (t_store (A:=nat) ex_tree) (Some 1) (probe_key 180%Z) = Ok None /\
    descend_to_leaf (descend_fuel (t_store (A:=nat) ex_tree)) (t_store ex_tree) (t_root (A:=nat) ex_tree) (probe_key 180%Z) = Ok i1 /\
    find_in_leaf (t_store (A:=nat) ex_tree) i1 (probe_key 180%Z) = Ok (Some o1) /\
    call (A:=nat) (with_cache ex_tree (Some 1)) CFirst = Ok (XEntry (Some e)) /\
    check_cache (t_store (A:=nat) ex_tree) (Some i1) (probe_key (2 * e.1)%Z) = Ok None /\
    descend_to_leaf (descend_fuel (t_store (A:=nat) ex_tree)) (t_store ex_tree) (t_root (A:=nat) ex_tree) (probe_key (2 * e.1)%Z) = Ok i2 /\
    find_in_leaf (t_store (A:=nat) ex_tree) i2 (probe_key (2 * e.1)%Z) = Ok (Some o2) /\
    call (A:=nat) (with_cache ex_tree (Some i2)) (CNext (mkCursor 180%Z 77 5)) = Ok (XCursor x) /\
    run_alone (A:=nat) ex_tree sh_a = Ok (Some o1, shown x) /\ run_alone (A:=nat) ex_tree sh_b = Ok (Some o2, Some e))
    as (i1 & i2 & o1 & o2 & e & x & C1 & D1 & F1 & CF & C2 & D2 & F2 & CN & RA & RB).
  { eexists _, _, _, _, _, _. split_and!; vm_compute; reflexivity. }
  eexists _, _, _. split; [|split; [exact RA|split; [exact RB|split; by eexists]]].
  generalize dependent (ex_tree (A:=nat)). intros T C1 D1 F1 CF C2 D2 F2 CN _ _. unfold sh_a, sh_b.
  eapply rtc_l. { eapply (ths_step T _ _ 0); [done|]. eapply th_miss; [by left|done]. }
  eapply rtc_l. { eapply (ths_step T _ _ 1); [done|]. eapply (th_call T _ _ _ (Some 1)); [by left|done]. }
  eapply rtc_l. { eapply (ths_step T _ _ 0); [done|]. by eapply th_descend. }
  eapply rtc_l. { eapply (ths_step T _ _ 1); [done|]. simpl. eapply (th_miss T _ _ _ (Some i1)); [by left|done]. }
  eapply rtc_l. { eapply (ths_step T _ _ 1); [done|]. by eapply th_descend. }
  eapply rtc_l. { eapply (ths_step T _ _ 0); [done|]. by eapply th_read. }
  eapply rtc_l. { eapply (ths_step T _ _ 0); [done|]. eapply (th_call T _ _ _ (Some i2)); [by left|done]. }
  eapply rtc_l. { eapply (ths_step T _ _ 1); [done|]. by eapply th_read. }
  apply rtc_refl.
Qed.
