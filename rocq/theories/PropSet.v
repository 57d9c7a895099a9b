(** C40, C41: [BPlusTreeSet] and [union]. *)
From stdpp Require Import list sorting.
From Coq Require Import ZArith.
From Verif Require Import Base Slots Store Tree Remove Iterators Observe BulkLoad Augment Spec Contents MapSet SetHist
  Instances HistTop SetProof.

(** The examples are computed in the dev profile. *)
Local Existing Instance dev_build.

(** C40: for every start and every list of calls the results are those of the
    same calls on a sorted list of keys without duplicates. *)
Theorem set_history_refines {K} {KO : KeyOps K} {PF : Profile} {OL : OrdLaws K} (b : set_start K) (ops : list (set_op K)) :
  exists l0 : list K, collected (set_given b) l0 /\
  (set_legal l0 ops -> exists T0 T, set_begin b = Ok T0 /\
    set_run T0 ops = Ok ((set_spec_run l0 ops).1, T) /\ set_keys true T = Ok (set_spec_run l0 ops).2).
Proof. exact (set_history_ok b ops). Qed.
Print Assumptions set_history_refines.

(** C40: without any condition on the number of keys collected, the calls are
    right up to a removal that stops at a node the load left over. *)
Theorem set_history_safe {K} {KO : KeyOps K} {PF : Profile} {OL : OrdLaws K} (b : set_start K) (ops : list (set_op K)) :
  exists l0 : list K, collected (set_given b) l0 /\
  (Forall set_op_ok ops -> set_fits l0 ops -> exists T0, set_begin b = Ok T0 /\
    ((exists T, set_run T0 ops = Ok ((set_spec_run l0 ops).1, T) /\ set_keys true T = Ok (set_spec_run l0 ops).2) \/
     ~ orphan_free (length l0) /\
     exists ops1 p ops2 T, ops = ops1 ++ SoRemove p :: ops2 /\
       set_run T0 ops1 = Ok ((set_spec_run l0 ops1).1, T) /\ set_keys true T = Ok (set_spec_run l0 ops1).2 /\
       spec_mem p (set_spec_run l0 ops1).2 = true /\
       (set_run T0 ops = Panic \/ dev = false /\ set_run T0 ops = UB))).
Proof. exact (set_history_gen b ops). Qed.
Print Assumptions set_history_safe.

(** C40: [into_iter], from both ends, hands out every key once. *)
Theorem set_into_both_ends {K} {KO : KeyOps K} {PF : Profile} {OL : OrdLaws K} (T : set_tree K) ks :
  set_reachable T ks ->
  exists it, set_into_iter T = Ok it /\ ii_len it = length ks /\
    forall ends, exists it', set_into_drive it ends = Ok ((deque_drive ks ends).1, it').
Proof. exact (set_into_ok T ks). Qed.
Print Assumptions set_into_both_ends.

(** C41 *)
Theorem union_sorted {K} {KO : KeyOps K} {PF : Profile} {OL : OrdLaws K} (a b : set_tree K) la lb :
  set_reachable a la -> set_reachable b lb ->
  exists u m, union_is la lb u /\ set_union a b = Ok m /\
    (union_size_hint m).1 <= length u <= (union_size_hint m).2 /\
    union_min a b m = Ok (head u) /\
    forall n, exists rs, union_drive a b m n = Ok rs /\ length rs = n /\
      forall i r, rs !! i = Some r -> r.1 = u !! i /\ r.2.1 <= length u - S i <= r.2.2.
Proof. exact (union_ok a b la lb). Qed.
Print Assumptions union_sorted.

(** ** Examples *)
Definition sinserts (l : list Z) : list (set_op Z) := map SoInsert l.
Definition sremoves (l : list Z) : list (set_op Z) := map (fun k => SoRemove (probe_key k)) l.

Lemma spec_add_length (k : Z) l : length (spec_add k l) <= S (length l).
Proof. induction l as [|x l IH]; simpl; [lia|]. destruct (kcmp x k); simpl; lia. Qed.
Lemma spec_del_length (p : probe Z) l : length (spec_del p l) <= length l.
Proof. unfold spec_del. induction l as [|x l IH]; simpl; [lia|]. destruct (p x); simpl; lia. Qed.
Lemma set_step_length (l : list Z) o : length (set_spec_step l o).2 <= S (length l).
Proof.
  destruct o; simpl; try lia; [apply spec_add_length|]. pose proof (spec_del_length p l). lia.
Qed.
Lemma set_fits_short (l : list Z) ops : (N.of_nat (length l + length ops) < 2 ^ 64)%N -> set_fits l ops.
Proof.
  revert l. induction ops as [|o ops IH]; intros l H; simpl in H |- *; (split; [lia|]); [done|].
  apply IH. pose proof (set_step_length l o). lia.
Qed.
Lemma sops_legal ins del : (N.of_nat (length (sinserts ins ++ sremoves del)) < 2 ^ 64)%N ->
  set_legal [] (sinserts ins ++ sremoves del).
Proof.
  intros H. split; [|by apply set_fits_short|by left]. apply Forall_app. split; apply Forall_map, Forall_forall; [done|].
  intros x _. apply probe_key_legal.
Qed.
Lemma collected_nil : collected (K:=Z) [] [].
Proof.
  split; [constructor|]. intros k. split; [intros H; by apply elem_of_nil in H|]. intros ([|] & ? & H & _); discriminate H.
Qed.
Definition set_of (ops : list (set_op Z)) : set_tree Z :=
  match set_run set_new ops with Ok (_, T) => T | _ => set_new end.
Lemma set_of_reachable ins del l : (N.of_nat (length (sinserts ins ++ sremoves del)) < 2 ^ 64)%N ->
  (set_spec_run [] (sinserts ins ++ sremoves del)).2 = l -> set_reachable (set_of (sinserts ins ++ sremoves del)) l.
Proof.
  intros H E. destruct (set_history_ok (StNew : set_start Z) (sinserts ins ++ sremoves del)) as (l0 & Hc & Hs).
  assert (l0 = []) as ->.
  { destruct Hc as [_ Hc]. destruct l0 as [|k l0]; [done|]. destruct (proj1 (Hc k) ltac:(left)) as ([|] & ? & Hd & _); discriminate Hd. }
  destruct (Hs (sops_legal ins del H)) as (T0 & T & E0 & E1 & _). injection E0 as <-.
  unfold set_of. rewrite E1. exists StNew, [], (sinserts ins ++ sremoves del), set_new. eexists.
  destruct (sops_legal ins del H) as [Ho Hf _].
  split; [apply collected_nil|]. split; [done|]. split; [done|]. split; [done|]. split; [exact E1|done].
Qed.

Definition set_a : list (set_op Z) := sinserts (zseq 0 150) ++ sremoves (zseq 20 100).
Definition set_b : list (set_op Z) := sinserts (rev (zseq 10 150)) ++ sremoves (zseq 30 100).
Definition list_a : list Z := zseq 0 20 ++ zseq 120 30.
Definition list_b : list Z := zseq 10 20 ++ zseq 130 30.
Lemma a_reachable : set_reachable (set_of set_a) list_a.
Proof. apply (set_of_reachable (zseq 0 150) (zseq 20 100)); vm_compute; reflexivity. Qed.
Lemma b_reachable : set_reachable (set_of set_b) list_b.
Proof. apply (set_of_reachable (rev (zseq 10 150)) (zseq 30 100)); vm_compute; reflexivity. Qed.

Example set_history_refines_ex :
  let ops := set_a ++ [SoInsert 5%Z; SoInsert 50%Z; SoContains (probe_key 50%Z); SoContains (probe_key 51%Z); SoLen; SoFirst; SoLast; SoIter] in
  collected (K:=Z) (set_given StNew) [] /\ set_legal [] set_a /\
  match set_run set_new ops with
  | Ok (rs, _) => drop 250 rs = [SrBool false; SrBool true; SrBool true; SrBool false; SrNum 51; SrKey (Some 0%Z);
      SrKey (Some 149%Z); SrKeys (zseq 0 20 ++ [50%Z] ++ zseq 120 30)]
  | _ => False end.
Proof.
  split; [apply collected_nil|]. split; [apply sops_legal; vm_compute; reflexivity|]. vm_compute. reflexivity.
Qed.
(** 4161 keys collected: removing key 5 is fine, removing the last key panics *)
Example set_history_safe_ex :
  let start := StCollect (zseq 0 4161) in
  Forall set_op_ok (sremoves [5%Z; 4160%Z]) /\
  set_fits (zseq 0 4161) (sremoves [5%Z; 4160%Z]) /\
  match set_begin start with
  | Ok T0 => match set_run T0 (sremoves [5%Z]) with Ok (rs, T) => rs = [SrBool true] /\ set_len T = 4160 | _ => False end /\
      set_run T0 (sremoves [5%Z; 4160%Z]) = Panic
  | _ => False end.
Proof.
  split; [repeat constructor; apply probe_key_legal|]. split; [apply set_fits_short; vm_compute; reflexivity|].
  vm_compute. done.
Qed.
Example set_into_both_ends_ex :
  set_reachable (set_of set_a) list_a /\
  match set_into_iter (set_of set_a) with
  | Ok it => match set_into_drive it [true; false; true] with
    | Ok (rs, _) => rs = [(Some 0%Z, 49); (Some 149%Z, 48); (Some 1%Z, 47)] | _ => False end
  | _ => False end.
Proof. split; [apply a_reachable|]. vm_compute. reflexivity. Qed.
Example union_sorted_ex :
  set_reachable (set_of set_a) list_a /\ set_reachable (set_of set_b) list_b /\
  match set_union (set_of set_a) (set_of set_b) with
  | Ok m => union_size_hint m = (50, 100) /\
      match union_drive (set_of set_a) (set_of set_b) m 71 with
      | Ok rs => map fst rs = map Some (zseq 0 30 ++ zseq 120 40) ++ [None] | _ => False end
  | _ => False end.
Proof. split; [apply a_reachable|]. split; [apply b_reachable|]. vm_compute. done. Qed.
