(** When the comparison only compares, the operations of [Volatile] are the others. *)
From stdpp Require Import list.
From Verif Require Import Base Slots BinSearch LeafNode InnerNode Store Tree Remove Iterators Observe Cursor BulkLoad
  InsertParts Volatile VolatileSpec SlotLemmas.

Section Agrees.
Context {W : Type}.
Definition agrees {X} (m : comp W X) (e : outcome X) : Prop := forall w, m w = (let! x := e in Ok (Some x, w)).

Lemma agrees_ret {X} (x : X) : agrees (cret x) (Ok x).
Proof. done. Qed.
Lemma agrees_lift {X} (e : outcome X) : agrees (clift e) e.
Proof. done. Qed.
Lemma agrees_bind {X Y} (m : comp W X) (f : X -> comp W Y) e g : agrees m e -> (forall x, agrees (f x) (g x)) ->
  agrees (cbind m f) (let! x := e in g x).
Proof. intros Hm Hf w. unfold cbind. rewrite (Hm w). by destruct e; [apply Hf|..]. Qed.
Lemma agrees_let {X Y} (m : comp W X) (f : X -> comp W Y) x g : agrees m (Ok x) -> agrees (f x) g -> agrees (cbind m f) g.
Proof. intros Hm Hf w. unfold cbind. rewrite (Hm w). apply Hf. Qed.
Lemma agrees_ask {K} (p : probe K) x : agrees (ask (pure p) x) (Ok (p x)).
Proof. done. Qed.
End Agrees.

Section Link.
Context {W K V A : Type} {KO : KeyOps K} {PF : Profile} {AO : AugOps K V A}.
Notation tree := (tree K V A).
Notation store := (store K V A).
Notation pure := (pure (W:=W) (K:=K)).
Implicit Types (p : probe K).

Ltac step := first
  [ apply agrees_ret | apply agrees_lift
  | apply agrees_bind; [|intros ?] ].

Lemma bsearch_agrees fuel p l left right :
  agrees (bsearch_loop_c fuel (pure p) l left right) (bsearch_loop fuel p l left right).
Proof.
  revert left right. induction fuel as [|fuel IH]; intros left right; cbn [bsearch_loop_c bsearch_loop]; [step|].
  destruct (decide (left < right)); [|step]. destruct (l !! _) as [x|]; [|step].
  eapply agrees_let; [apply agrees_ask|]. destruct (p x); [step|apply IH..].
Qed.

Lemma locate_agrees (n : leaf K V) p : agrees (leaf_locate_slot_c n (pure p)) (leaf_locate_slot n p).
Proof. apply agrees_bind; [step|]. intros ks. apply bsearch_agrees. Qed.

Lemma value_agrees (n : leaf K V) p :
  agrees (leaf_locate_slot_with_value_c n (pure p)) (leaf_locate_slot_with_value n p).
Proof.
  apply agrees_bind; [apply locate_agrees|]. intros [i|i]; [|step]. apply agrees_bind; [step|]. intros v. step.
Qed.

Lemma range_agrees (n : leaf K V) p : agrees (leaf_in_range_c n (pure p)) (leaf_in_range n p).
Proof.
  apply agrees_bind.
  { destruct (l_prev n); [|step]. apply agrees_bind; [step|]. intros x.
    eapply agrees_let; [apply agrees_ask|]. step. }
  intros []; [step|]. apply agrees_bind; [|intros; step].
  destruct (l_next n); [|step]. apply agrees_bind; [step|]. intros i. apply agrees_bind; [step|]. intros x.
  eapply agrees_let; [apply agrees_ask|]. step.
Qed.

Lemma child_agrees (n : inner K A) p : agrees (inner_locate_child_c n (pure p)) (inner_locate_child n p).
Proof.
  apply agrees_bind; [step|]. intros ks. apply agrees_bind; [apply bsearch_agrees|].
  intros [i|i]; (apply agrees_bind; [step|]; intros x; step).
Qed.

Lemma cache_agrees (s : store) p : agrees (try_cache_c s (pure p)) (try_cache s p).
Proof.
  unfold try_cache_c, try_cache, check_cache. destruct (cached s); [|step]. destruct (try_get_leaf s _); [|step].
  apply agrees_bind; [apply range_agrees|]. intros b. step.
Qed.

Lemma to_leaf_agrees fuel (s : store) node p :
  agrees (descend_to_leaf_c fuel s node (pure p)) (descend_to_leaf fuel s node p).
Proof.
  revert node. induction fuel as [|fuel IH]; intros [id|id]; cbn [descend_to_leaf_c descend_to_leaf]; try apply agrees_ret; try apply agrees_lift.
  apply agrees_bind; [step|]. intros n. apply agrees_bind; [apply child_agrees|]. intros [i x]. apply IH.
Qed.

Lemma insert_descend_agrees fuel (s : store) id k st :
  agrees (insert_descend_c fuel s id (pure (probe_key k)) st) (insert_descend fuel s id k st).
Proof.
  revert id st. induction fuel as [|fuel IH]; intros id st; cbn [insert_descend_c insert_descend]; [step|].
  apply agrees_bind; [step|]. intros n. apply agrees_bind; [apply child_agrees|]. intros [i x].
  apply agrees_bind; [step|]. intros st'. destruct x; [apply IH|step].
Qed.

Lemma key_to_ref_agrees fuel (s : store) node p st :
  agrees (key_to_ref_loop_c fuel s node (pure p) st) (key_to_ref_loop fuel s node p st).
Proof.
  assert (forall id (st : visit_stack), agrees (do! n := clift (get_leaf s id) in do! r := leaf_locate_slot_c n (pure p) in
      match r with ROk idx => cret (Some (st, id, idx)) | RErr _ => cret None end)
    (let! n := get_leaf s id in let! r := leaf_locate_slot n p in
      match r with ROk idx => Ok (Some (st, id, idx)) | RErr _ => Ok None end)) as Hl.
  { intros id st'. apply agrees_bind; [step|]. intros n. apply agrees_bind; [apply locate_agrees|]. intros []; step. }
  revert node st. induction fuel as [|fuel IH]; intros [id|id] st; cbn [key_to_ref_loop_c key_to_ref_loop];
    [apply agrees_lift|apply Hl| |apply Hl].
  apply agrees_bind; [step|]. intros n. apply agrees_bind; [apply child_agrees|]. intros [i x].
  apply agrees_bind; [step|]. intros st'. apply IH.
Qed.

(** ** Calls *)
Definition call_agrees {X} (m : call (A:=A) X) (e : outcome (X * tree)) : Prop :=
  forall w : W, m w = (let! '(x, T) := e in Ok (Some x, T, w)).

Lemma leaving_agrees {X} T (m : comp W (X * tree)) e : agrees m e -> call_agrees (leaving T m) e.
Proof. intros Hm w. unfold leaving. rewrite (Hm w). by destruct e as [[x T']| | | |]. Qed.

Lemma upsert_agrees (n : leaf K V) k v :
  leaf_try_upsert n k v = (let! r := leaf_locate_slot n (probe_key k) in leaf_upsert_at n k v r).
Proof. done. Qed.

Lemma insert_leaf_agrees (s : store) id k v :
  agrees (insert_leaf_c s id (pure (probe_key k)) k v) (insert_leaf s id k v).
Proof.
  apply agrees_bind; [step|]. intros n w. unfold cbind. rewrite (locate_agrees n (probe_key k) w), upsert_agrees.
  by destruct (leaf_locate_slot n (probe_key k)).
Qed.

Lemma descend_insert_agrees (s : store) node k v :
  agrees (descend_insert_c s node (pure (probe_key k)) k v) (descend_insert s node k v).
Proof.
  destruct node as [id|id]; [|apply insert_leaf_agrees]. cbn [descend_insert_c descend_insert].
  apply agrees_bind; [apply insert_descend_agrees|]. intros [st lid].
  apply agrees_bind; [apply insert_leaf_agrees|]. intros [r s']. step.
Qed.

Lemma insert_agrees (T : tree) k v : call_agrees (insert_c T (pure (probe_key k)) k v) (insert T k v).
Proof.
  apply leaving_agrees. apply agrees_bind; [apply descend_insert_agrees|]. intros [r s]. step.
Qed.

Lemma remove_agrees (T : tree) p : call_agrees (remove_c T (pure p)) (remove T p).
Proof.
  apply leaving_agrees. intros w. unfold remove, remove_impl, cbind, key_to_ref.
  rewrite (key_to_ref_agrees _ _ _ _ _ w). destruct (key_to_ref_loop _ _ _ _ _) as [[[[st id] off]|]| | | |]; try done.
  cbn [obind]. unfold clift. by destruct (remove_by_ref T st id off) as [[kv T']| | | |].
Qed.

Lemma find_agrees (s : store) id p : agrees (find_in_leaf_c s id (pure p)) (find_in_leaf s id p).
Proof.
  apply agrees_bind; [step|]. intros n. apply agrees_bind; [apply value_agrees|]. intros [i o]. step.
Qed.
Lemma find_mut_agrees (s : store) id p f : agrees (find_in_leaf_mut_c s id (pure p) f) (find_in_leaf_mut s id p f).
Proof.
  apply agrees_bind; [step|]. intros n w. unfold cbind, leaf_locate_slot_mut. rewrite (locate_agrees n p w).
  destruct (leaf_locate_slot n p) as [[i|i]| | | |]; try done. cbn [obind]. unfold clift.
  by destruct (leaf_value_at_mut n i f) as [[v n']| | | |].
Qed.

Lemma get_agrees (T : tree) p : call_agrees (get_c T (pure p)) (get T p).
Proof.
  intros w. unfold get_c, get. rewrite (cache_agrees (t_store T) p w).
  destruct (try_cache (t_store T) p) as [[id|]| | | |]; try done; cbn [obind].
  - apply leaving_agrees. apply agrees_bind; [apply find_agrees|]. intros o. step.
  - rewrite (to_leaf_agrees _ _ _ p w). destruct (descend_to_leaf _ _ _ p) as [id| | | |]; try done. cbn [obind].
    apply leaving_agrees. apply agrees_bind; [apply find_agrees|]. intros o. step.
Qed.
Lemma get_mut_agrees (T : tree) p f : call_agrees (get_mut_c T (pure p) f) (get_mut T p f).
Proof.
  intros w. unfold get_mut_c, get_mut. rewrite (cache_agrees (t_store T) p w).
  destruct (try_cache (t_store T) p) as [[id|]| | | |]; try done; cbn [obind].
  - apply leaving_agrees. apply agrees_bind; [apply find_mut_agrees|]. intros [o s]. step.
  - rewrite (to_leaf_agrees _ _ _ p w). destruct (descend_to_leaf _ _ _ p) as [id| | | |]; try done. cbn [obind].
    apply leaving_agrees. apply agrees_bind; [apply find_mut_agrees|]. intros [o s]. step.
Qed.

(** ** Cursors *)
Notation key_code x := (pure (probe_key (c_key x))).

Lemma locate_leaf_agrees (T : tree) k : agrees (locate_leaf_c T (pure (probe_key k))) (locate_leaf T k).
Proof. apply agrees_bind; [apply cache_agrees|]. intros [id|]; [step|apply to_leaf_agrees]. Qed.

Lemma cursor_locate_agrees (T : tree) x : agrees (cursor_locate_leaf_c T (key_code x) x) (cursor_locate_leaf T x).
Proof.
  apply agrees_bind.
  - destruct (try_get_leaf (t_store T) (c_leaf x)) as [l|]; [|step]. apply agrees_bind; [apply range_agrees|]. intros b. step.
  - intros [l|]; [step|]. apply agrees_bind; [apply locate_leaf_agrees|]. intros id.
    apply agrees_bind; [step|]. intros l. step.
Qed.
Lemma hint_agrees (l : leaf K V) x : agrees (cursor_hint_hits_c l (key_code x) x) (cursor_hint_hits l x).
Proof.
  apply agrees_bind; [step|]. intros [[k v]|]; [|step]. eapply agrees_let; [apply agrees_ask|].
  unfold key_eqb, probe_key. destruct (kcmp k (c_key x)); step.
Qed.
Lemma next_agrees (T : tree) x : agrees (cursor_next_c T (key_code x) x) (cursor_next_with_value T x).
Proof.
  apply agrees_bind; [apply cursor_locate_agrees|]. intros [id l]. apply agrees_bind; [apply hint_agrees|]. intros o.
  apply agrees_bind; [|intros i; step]. destruct o; [step|]. apply agrees_bind; [apply value_agrees|]. intros [i v]. step.
Qed.
Lemma prev_agrees (T : tree) x : agrees (cursor_prev_c T (key_code x) x) (cursor_prev_with_value T x).
Proof.
  apply agrees_bind; [apply cursor_locate_agrees|]. intros [id l]. apply agrees_bind; [apply hint_agrees|]. intros o.
  apply agrees_bind; [|intros i; step]. destruct o; [step|]. apply agrees_bind; [apply locate_agrees|]. intros r. step.
Qed.
Lemma cursor_value_agrees (T : tree) x : agrees (cursor_value_c T (key_code x) x) (cursor_value T x).
Proof.
  apply agrees_bind; [apply cursor_locate_agrees|]. intros [id l]. apply agrees_bind; [apply hint_agrees|].
  intros [v|]; [step|]. apply agrees_bind; [apply value_agrees|]. intros [i v]. step.
Qed.
Lemma get_cursor_agrees (T : tree) k : agrees (get_cursor_c T (pure (probe_key k)) k) (get_cursor T k).
Proof.
  apply agrees_bind; [apply to_leaf_agrees|]. intros id. apply agrees_bind; [step|]. intros l.
  apply agrees_bind; [apply value_agrees|]. intros [i v]. step.
Qed.

(** ** Bulk loading *)
Lemma dedup_agrees cur (l : list (K * V)) :
  agrees (dedup_keep_last_c (W:=W) (pure2 kcmp) cur l) (Ok (dedup_keep_last cur l)).
Proof.
  revert cur. induction l as [|x l IH]; intros cur; cbn [dedup_keep_last_c dedup_keep_last]; [step|].
  destruct cur as [y|]; [|apply IH]. apply (agrees_let _ _ (kcmp y.1 x.1)); [done|]. unfold same_key.
  destruct (kcmp y.1 x.1); [apply IH| |]; (eapply agrees_let; [apply IH|]; step).
Qed.
Lemma bulk_load_agrees (data : list (K * V)) : agrees (bulk_load_c (A:=A) (W:=W) (pure2 kcmp) data) (bulk_load data).
Proof.
  destruct data as [|x data]; [step|]. cbn [bulk_load_c bulk_load]. eapply agrees_let; [apply dedup_agrees|]. cbn beta. apply agrees_lift.
Qed.
End Link.
