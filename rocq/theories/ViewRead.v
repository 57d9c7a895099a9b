(** Reading the tree of nodes of a concrete tree off its store, for the examples. *)
From stdpp Require Import list list_numbers.
From Verif Require Import Base Slots LeafNode InnerNode Store Tree Augment View NodeLemmas.

Section ViewRead.
Context {K V A : Type}.
Notation view := (view K V).

Fixpoint read_view (fuel : nat) (s : store K V A) (node : node_id) : option view :=
  match node, fuel with
  | NLeaf id, _ =>
      match get_leaf s id with
      | Ok n =>
          match leaf_keys n, leaf_values n with
          | Ok ks, Ok vs => if decide (length ks = length vs) then Some (VLeaf id (zip ks vs)) else None
          | _, _ => None
          end
      | _ => None
      end
  | NInner id, S fuel' =>
      match get_inner s id with
      | Ok n =>
          match inner_keys n with
          | Ok ks =>
              VInner id ks <$> mapM (fun i =>
                match inner_child_id n i with Ok c => read_view fuel' s c | _ => None end) (seq 0 (S (length ks)))
          | _ => None
          end
      | _ => None
      end
  | _, _ => None
  end.

Lemma read_view_ok fuel s node w : read_view fuel s node = Some w -> view_id w = node /\ shows s w.
Proof.
  revert node w. induction fuel as [|fuel IH]; intros [id|id] w; cbn [read_view]; [done| | |].
  2: destruct (get_inner s id) as [n| | | |] eqn:En; [|done..]; destruct (inner_keys n) as [ks| | | |] eqn:Ek; [|done..];
     destruct (mapM _ _) as [ch|] eqn:Em; [|done]; intros [= <-]; split; [done|];
     apply mapM_Some in Em; apply (shows_inner s id n ks ch); [done|done| | |].
  2: apply Forall2_length in Em; by rewrite seq_length in Em.
  2: { intros i c Hc. destruct (Forall2_lookup_r _ _ _ _ _ Em Hc) as (j & Hj & E). apply lookup_seq in Hj as [-> _].
       cbn in E. destruct (inner_child_id n i) as [c'| | | |]; [|done..]. by apply IH in E as [-> _]. }
  2: { apply Forall_forall. intros c Hc. apply elem_of_list_lookup in Hc as [i Hc].
       destruct (Forall2_lookup_r _ _ _ _ _ Em Hc) as (j & Hj & E). cbn in E.
       destruct (inner_child_id n j) as [c'| | | |]; [|done..]. by apply IH in E as [_ E]. }
  all: destruct (get_leaf s id) as [n| | | |] eqn:En; [|done..]; destruct (leaf_keys n) as [ks| | | |] eqn:Ek; [|done..];
    destruct (leaf_values n) as [vs| | | |] eqn:Ev; [|done..]; case_decide as Hl; [|done]; intros [= <-]; split; [done|];
    apply (shows_leaf s id n); [done|..].
  all: change (map fst (zip ks vs)) with ((zip ks vs).*1); change (map snd (zip ks vs)) with ((zip ks vs).*2).
  all: rewrite ?fst_zip, ?snd_zip by lia; done.
Qed.

Definition tree_view (T : tree K V A) : view := default (VLeaf 0 []) (read_view 16 (t_store T) (t_root T)).
Lemma tree_view_shows (T : tree K V A) : bool_decide (is_Some (read_view 16 (t_store T) (t_root T))) = true -> tree_shows T (tree_view T).
Proof.
  unfold tree_view. destruct (read_view 16 _ _) as [w|] eqn:E; [|intros H; by apply bool_decide_eq_true in H as [? ?]]. intros _. apply read_view_ok in E as [? ?]. by split.
Qed.
End ViewRead.
