(** C05-C09, C34-C36: iterators, clear, clone, drop. *)
From stdpp Require Import list.
From Coq Require Import ZArith.
From Verif Require Import Base Slots Store Tree Remove Iterators Observe BulkLoad History Spec Contents Augment
  Instances HistTop MapTop ReadTop.

(** The examples are computed in the dev profile. *)
Local Existing Instance dev_build.

Local Instance ex_aug : AugOps Z Z nat := count_aug.

(** C05, C08 (forward): [n] calls of [next] give the first [n] entries, then
    [None] for ever; [size_hint] is exact after every call. *)
Theorem iter_forward {K V A} {KO : KeyOps K} {PF : Profile} {OL : OrdLaws K} {AO : AugOps K V A}
    (b : start K V) (T : tree K V A) l :
  reachable b T l ->
  ascending l /\ exists it, iter_new T = Ok it /\ iter_size_hint it = length l /\
    forall n, iter_drive T it (replicate n true) = Ok (map (fun i => (l !! i, length l - S i)) (seq 0 n)).
Proof. exact (iter_fwd_ok b T l). Qed.
Print Assumptions iter_forward.
Example iter_forward_ex :
  reachable (A:=nat) SNew ex_tree ex_list /\
  match iter_new (A:=nat) ex_tree with
  | Ok it => match iter_drive ex_tree it (replicate 82 true) with
             | Ok rs => drop 79 rs = [(Some (199, 1990)%Z, 0); (None, 0); (None, 0)]
             | _ => False end
  | _ => False
  end.
Proof. split; [by apply ex_reachable|]. vm_compute. done. Qed.

(** C06 *)
Theorem iter_backward {K V A} {KO : KeyOps K} {PF : Profile} {OL : OrdLaws K} {AO : AugOps K V A}
    (b : start K V) (T : tree K V A) l :
  reachable b T l ->
  exists it, iter_new T = Ok it /\
    forall n, exists rs, iter_drive T it (replicate n false) = Ok rs /\
      map fst rs = map (fun i => rev l !! i) (seq 0 n).
Proof. exact (iter_bwd_ok b T l). Qed.
Print Assumptions iter_backward.
Example iter_backward_ex :
  reachable (A:=nat) SNew ex_tree ex_list /\
  match iter_new (A:=nat) ex_tree with
  | Ok it => match iter_drive ex_tree it (replicate 82 false) with
             | Ok rs => drop 79 (map fst rs) = [Some (0, 0)%Z; None; None]
             | _ => False end
  | _ => False
  end.
Proof. split; [by apply ex_reachable|]. vm_compute. done. Qed.

(** C07.  Full statement: every interleaving behaves like the double ended
    iterator over the list of entries.  Missing: interleavings with more calls
    than entries. *)
Theorem iter_mixed_partial {K V A} {KO : KeyOps K} {PF : Profile} {OL : OrdLaws K} {AO : AugOps K V A}
    (b : start K V) (T : tree K V A) l :
  reachable b T l ->
  exists it, iter_new T = Ok it /\
    forall ends, length ends <= length l ->
      exists rs, iter_drive T it ends = Ok rs /\ map fst rs = map fst (deque_drive l ends).1.
Proof. exact (iter_mixed_ok b T l). Qed.
Print Assumptions iter_mixed_partial.
Example iter_mixed_partial_ex :
  reachable (A:=nat) SNew ex_tree ex_list /\ length [true; false; true; false; false] <= length ex_list /\
  match iter_new (A:=nat) ex_tree with
  | Ok it => match iter_drive ex_tree it [true; false; true; false; false] with
             | Ok rs => map fst rs = [Some (0, 0); Some (199, 1990); Some (1, 10); Some (198, 1980); Some (197, 1970)]%Z
             | _ => False end
  | _ => False
  end.
Proof. split; [by apply ex_reachable|]. vm_compute. split; [lia|done]. Qed.

(** The full statement fails: two entries, [next] after both were handed out
    gives the second one again. *)
Definition two_ops : list (op Z Z) := zinserts [1; 2]%Z ++ zremoves [].
Theorem iter_mixed_refuted :
  exists (T : tree Z Z nat) l it ends rs,
    reachable SNew T l /\ iter_new T = Ok it /\ iter_drive T it ends = Ok rs /\
    map fst rs <> map fst (deque_drive l ends).1 /\
    map fst rs = [Some (1, 10); Some (2, 20); Some (2, 20)]%Z.
Proof.
  exists (tree_of SNew two_ops), (zpairs [1; 2]%Z).
  assert (legal (A:=nat) SNew two_ops) as Hl by (apply zops_legal; [done|by left|by vm_compute|done]).
  eexists _, [true; false; true], _. split.
  { apply (tree_of_reachable SNew two_ops _ Hl). vm_compute. reflexivity. }
  split; [vm_compute; reflexivity|]. split; [vm_compute; reflexivity|]. split; [|vm_compute; reflexivity].
  vm_compute. congruence.
Qed.
Print Assumptions iter_mixed_refuted.

(** C08 fails after [next_back]: [size_hint] does not go down. *)
Theorem iter_size_refuted :
  exists (T : tree Z Z nat) l it rs,
    reachable SNew T l /\ iter_new T = Ok it /\ iter_drive T it [false] = Ok rs /\
    map snd rs <> map snd (deque_drive l [false]).1.
Proof.
  exists (tree_of SNew two_ops), (zpairs [1; 2]%Z).
  assert (legal (A:=nat) SNew two_ops) as Hl by (apply zops_legal; [done|by left|by vm_compute|done]).
  eexists _, _. split.
  { apply (tree_of_reachable SNew two_ops _ Hl). vm_compute. reflexivity. }
  split; [vm_compute; reflexivity|]. split; [vm_compute; reflexivity|]. vm_compute. congruence.
Qed.
Print Assumptions iter_size_refuted.

(** C50: what [Iter] does instead, for every mix of calls.  No call panics or
    reads outside the leaves; the two ends walk independently of each other, and
    both are over once [next] was called as often as there are entries. *)
Theorem iter_any_calls {K V A} {KO : KeyOps K} {PF : Profile} {OL : OrdLaws K} {AO : AugOps K V A}
    (b : start K V) (T : tree K V A) l :
  reachable b T l ->
  exists it, iter_new T = Ok it /\ iter_size_hint it = length l /\
  forall ends, exists rs, iter_drive T it ends = Ok rs /\ length rs = length ends /\ forall i,
    let nexts := calls true (take i ends) in let backs := calls false (take i ends) in
    (ends !! i = Some true -> rs !! i = Some (l !! nexts, length l - S nexts)) /\
    (ends !! i = Some false -> nexts < length l -> rs !! i = Some (rev l !! backs, length l - nexts)) /\
    (ends !! i = Some false -> length l <= nexts -> rs !! i = Some (None, 0)).
Proof. exact (iter_moves_ok b T l). Qed.
Print Assumptions iter_any_calls.
Example iter_any_calls_ex :
  reachable (A:=nat) SNew ex_tree ex_list /\
  match iter_new (A:=nat) ex_tree with
  | Ok it => match iter_drive ex_tree it (true :: replicate 81 false ++ replicate 79 true ++ [false; true]) with
             | Ok rs => take 2 (drop 80 rs) = [(Some (0, 0)%Z, 79); (None, 79)] /\
                 drop 160 rs = [(Some (199, 1990)%Z, 0); (None, 0); (None, 0)] | _ => False end
  | _ => False
  end.
Proof. split; [by apply ex_reachable|]. vm_compute. done. Qed.

(** C09, C36 (partly consumed [into_iter]) *)
Theorem into_iter_both_ends {K V A} {KO : KeyOps K} {PF : Profile} {OL : OrdLaws K} {AO : AugOps K V A}
    (b : start K V) (T : tree K V A) l :
  reachable b T l ->
  exists it, into_iter_new T = Ok it /\ ii_len it = length l /\
    forall ends, exists it', into_drive it ends = Ok ((deque_drive l ends).1, it') /\
      ii_len it' = length (deque_drive l ends).2 /\ into_iter_drop it' = Ok (deque_drive l ends).2.
Proof. exact (into_iter_ok b T l). Qed.
Print Assumptions into_iter_both_ends.
Example into_iter_both_ends_ex :
  reachable (A:=nat) SNew ex_tree ex_list /\
  match into_iter_new (A:=nat) ex_tree with
  | Ok it => match into_drive it ([false; true; false] ++ replicate 76 true ++ [false; true; false]) with
             | Ok (rs, it') => take 3 rs = [(Some (199, 1990)%Z, 79); (Some (0, 0)%Z, 78); (Some (198, 1980)%Z, 77)] /\
                 drop 79 rs = [(Some (197, 1970)%Z, 0); (None, 0); (None, 0)] /\ into_iter_drop it' = Ok []
             | _ => False end
  | _ => False
  end.
Proof. split; [by apply ex_reachable|]. vm_compute. done. Qed.

(** C36 *)
Theorem drop_once {K V A} {KO : KeyOps K} {PF : Profile} {OL : OrdLaws K} {AO : AugOps K V A}
    (b : start K V) (T : tree K V A) l :
  reachable b T l -> tree_drop T = Ok l.
Proof. exact (tree_drop_top b T l). Qed.
Print Assumptions drop_once.
Example drop_once_ex : reachable (A:=nat) SNew ex_tree ex_list /\ tree_drop (A:=nat) ex_tree = Ok ex_list.
Proof. split; [by apply ex_reachable|]. vm_compute. done. Qed.

(** C34 *)
Theorem clear_is_new {K V A} {KO : KeyOps K} {PF : Profile} {OL : OrdLaws K} {AO : AugOps K V A}
    (b : start K V) (T : tree K V A) l :
  reachable b T l ->
  clear T = Ok tree_new /\ reachable SNew (tree_new : tree K V A) [] /\ reachable b (tree_new : tree K V A) [].
Proof. exact (clear_reach b T l). Qed.
Print Assumptions clear_is_new.
Example clear_is_new_ex :
  reachable (A:=nat) SNew ex_tree ex_list /\ t_len (A:=nat) ex_tree = 80 /\ clear (A:=nat) ex_tree = Ok tree_new.
Proof. split; [by apply ex_reachable|]. vm_compute. done. Qed.

(** C35.  The clone is a value of its own; whatever history it goes through
    afterwards gives the results of that history alone. *)
Theorem clone_equal {K V A} {KO : KeyOps K} {PF : Profile} {OL : OrdLaws K} {AO : AugOps K V A}
    (b : start K V) (T : tree K V A) l :
  reachable b T l ->
  exists T', tree_clone T = Ok T' /\ reachable b T' l /\ entries T' = Ok l /\ t_len T' = t_len T /\ t_aug T' = t_aug T.
Proof. exact (clone_reach b T l). Qed.
Print Assumptions clone_equal.
Example clone_equal_ex :
  reachable (A:=nat) SNew ex_tree ex_list /\
  match tree_clone (A:=nat) ex_tree with
  | Ok T' => match remove (A:=nat) T' (probe_key 3%Z), get (A:=nat) ex_tree (probe_key 3%Z) with
             | Ok (r1, T2), Ok (r2, _) => r1 = Some 30%Z /\ r2 = Some 30%Z /\ t_len T2 = 79
             | _, _ => False end
  | _ => False
  end.
Proof. split; [by apply ex_reachable|]. vm_compute. done. Qed.
