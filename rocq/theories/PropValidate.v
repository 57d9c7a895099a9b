(** C69: the library's own check of the leaf links. *)
From stdpp Require Import list.
From Coq Require Import ZArith.
From Verif Require Import Base Slots LeafNode InnerNode Store Tree Remove Iterators Observe BulkLoad History Spec Augment
  Instances HistTop AnySpec AnyHist Validate ValidateSpec ValidateProof.
From Verif Require PropAny.

(** The examples are computed in the dev profile. *)
Local Existing Instance dev_build.

Local Instance ex_aug : AugOps Z Z nat := count_aug.

(** What the check means, on any tree at all: it accepts exactly if the leaves
    from the first one on form a finite list whose back links agree. *)
Theorem validate_exact {K V A} {PF : Profile} (T : tree K V A) f :
  first_leaf T = Ok f ->
  (validate T = Ok tt <-> exists ids, list_links (t_store T) (f :: ids)).
Proof. exact (validate_iff T f). Qed.
Print Assumptions validate_exact.
(** A tree of four leaves is accepted, and one with a leaf that names a wrong neighbour is
    not.  A list cut short is still a list. *)
Definition relink (p n : option nat) (T : tree Z Z nat) : tree Z Z nat :=
  mkTree (t_root T) (t_aug T) (t_len T)
    (set_leaves (t_store T) (alter (option_map (fun l => mkLeaf (l_size l) (l_keys l) (l_vals l) p n)) 4 (leaves (t_store T))))
    (t_st T).
Example validate_exact_ex :
  first_leaf (A:=nat) ex_tree = Ok 0 /\ list_links (t_store (A:=nat) ex_tree) [0; 1; 4; 5] /\ validate (A:=nat) ex_tree = Ok tt /\
  validate (relink (Some 0) (Some 5) ex_tree) = Panic /\ validate (relink (Some 1) (Some 1) ex_tree) = Panic /\
  validate (relink (Some 1) None ex_tree) = Ok tt /\ validate (relink (Some 4) (Some 4) (relink (Some 1) (Some 4) ex_tree)) = Panic.
Proof.
  split; [vm_compute; done|]. split; [|vm_compute; done].
  intros [|[|[|[|i]]]] id Hi; try (injection Hi as <-); [..|done];
    (eexists; split; [vm_compute; reflexivity|split; [vm_compute; done|intros [|[|[|j]]] Hj; try lia; try done; vm_compute; done]]).
Qed.

(** Every tree a history gives passes it. *)
Theorem validate_passes {K V A} {KO : KeyOps K} {PF : Profile} {OL : OrdLaws K} {AO : AugOps K V A}
    (b : start K V) (T : tree K V A) l :
  reachable b T l -> validate T = Ok tt.
Proof. exact (validate_top b T l). Qed.
Print Assumptions validate_passes.
Example validate_passes_ex : reachable (A:=nat) SNew ex_tree ex_list /\ length (leaves (t_store (A:=nat) ex_tree)) = 6.
Proof. split; [by apply ex_reachable|]. vm_compute. reflexivity. Qed.

(** Whatever the comparison does. *)
Theorem validate_passes_any {K V A} {KO : KeyOps K} {PF : Profile} {AO : AugOps K V A}
    (b : start K V) (T : tree K V A) l :
  any_reachable b T l -> validate T = Ok tt.
Proof. exact (validate_any b T l). Qed.
Print Assumptions validate_passes_any.
Example validate_passes_any_ex :
  any_reachable (KO:=PropAny.wheel) (A:=nat) SNew PropAny.wheel_tree PropAny.wheel_list /\ length PropAny.wheel_list = 116.
Proof. split; [|vm_compute; done]. apply PropAny.any_order_cursors_ex. Qed.
