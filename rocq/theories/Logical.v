(** Logical trees: the abstract tree a store represents, its traversal, the
    representation predicates and the invariant. *)
From stdpp Require Import list sorting.
From Verif Require Import Base Slots BinSearch LeafNode InnerNode Store Tree Remove
  SlotLemmas NodeLemmas Spec Order.

Inductive tr (K V : Type) :=
| TLeaf (id : nat) (kvs : list (K * V))
| TNode (id : nat) (ks : list K) (ch : list (tr K V)).
Arguments TLeaf {K V}. Arguments TNode {K V}.

Section Logical.
Context {K V A : Type} {KO : KeyOps K} {PF : Profile} {OM : OrdMode} {AO : AugOps K V A}.
Notation tr := (tr K V).
Notation mark := (K * option V)%type.
Notation seg := (nat * list (K * V))%type.
Implicit Types (t : tr) (ch : list tr) (ks : list K) (kvs : list (K * V)).

Definition nid t : node_id := match t with TLeaf id _ => NLeaf id | TNode id _ _ => NInner id end.

(** ** Traversals *)
Fixpoint interleave (xss : list (list mark)) ks : list mark :=
  match xss with
  | [] => []
  | xs :: xss' =>
      xs ++ match ks with
            | [] => concat xss'
            | k :: ks' => (k, None) :: interleave xss' ks'
            end
  end.
Fixpoint trav t : list mark :=
  match t with
  | TLeaf _ kvs => map emark kvs
  | TNode _ ks ch => interleave (map trav ch) ks
  end.
Fixpoint leaf_seq t : list seg :=
  match t with
  | TLeaf id kvs => [(id, kvs)]
  | TNode _ _ ch => concat (map leaf_seq ch)
  end.
Definition flat t : list (K * V) := concat (map snd (leaf_seq t)).
Fixpoint inner_ids t : list nat :=
  match t with
  | TLeaf _ _ => []
  | TNode id _ ch => id :: concat (map inner_ids ch)
  end.
Fixpoint aug_of t : A :=
  match t with
  | TLeaf _ kvs => from_leaf (keysof kvs) (valsof kvs)
  | TNode _ ks ch => from_inner (V:=V) ks (map aug_of ch)
  end.

(** Marks to the left / to the right of a child. *)
Definition zl ch ks : list mark := concat (zip_with (fun c k => trav c ++ [(k, None)]) ch ks).
Definition zr ks ch : list mark := concat (zip_with (fun k c => (k, None) :: trav c) ks ch).

Lemma zl_app cl1 cl2 kl1 kl2 : length cl1 = length kl1 ->
  zl (cl1 ++ cl2) (kl1 ++ kl2) = zl cl1 kl1 ++ zl cl2 kl2.
Proof. intros H. unfold zl. by rewrite zip_with_app, concat_app. Qed.
Lemma zr_app cl1 cl2 kl1 kl2 : length kl1 = length cl1 ->
  zr (kl1 ++ kl2) (cl1 ++ cl2) = zr kl1 cl1 ++ zr kl2 cl2.
Proof. intros H. unfold zr. by rewrite zip_with_app, concat_app. Qed.
Lemma zl_one c k : zl [c] [k] = trav c ++ [(k, None)].
Proof. unfold zl. simpl. by rewrite app_nil_r. Qed.
Lemma zr_cons k kr c cr : zr (k :: kr) (c :: cr) = (k, None) :: trav c ++ zr kr cr.
Proof. done. Qed.
Lemma zr_nil_r kr : zr kr [] = [].
Proof. by destruct kr. Qed.

Lemma interleave_zr xs cr kr : length kr = length cr ->
  interleave (xs :: map trav cr) kr = xs ++ zr kr cr.
Proof.
  revert xs kr. induction cr as [|c cr IH]; intros xs kr H; destruct kr as [|k kr]; try done.
  injection H as H. change (interleave (xs :: map trav (c :: cr)) (k :: kr))
    with (xs ++ (k, None) :: interleave (trav c :: map trav cr) kr).
  rewrite IH by done. done.
Qed.

Lemma trav_node id kl kr cl c cr : length kl = length cl -> length kr = length cr ->
  trav (TNode id (kl ++ kr) (cl ++ c :: cr)) = zl cl kl ++ trav c ++ zr kr cr.
Proof.
  intros H1 H2. simpl. revert kl H1. induction cl as [|c' cl IH]; intros kl H1; destruct kl as [|k kl]; try done.
  - simpl. by rewrite <- interleave_zr.
  - injection H1 as H1. simpl. rewrite IH by done. unfold zl. simpl. by rewrite <- !app_assoc.
Qed.

Lemma interleave_app xss yss a k b : length xss = S (length a) ->
  interleave (xss ++ yss) (a ++ k :: b) = interleave xss a ++ (k, None) :: interleave yss b.
Proof.
  revert a. induction xss as [|xs xss IH]; intros a H; [done|]. injection H as H.
  destruct a as [|k' a]; simpl.
  - destruct xss; [|done]. simpl. by rewrite app_nil_r.
  - rewrite IH by done. by rewrite <- app_assoc.
Qed.

Lemma trav_node_app id id1 id2 ca cb a k b : length ca = S (length a) ->
  trav (TNode id (a ++ k :: b) (ca ++ cb)) = trav (TNode id1 a ca) ++ (k, None) :: trav (TNode id2 b cb).
Proof. intros H. simpl. rewrite map_app. apply interleave_app. by rewrite map_length. Qed.

Lemma elems_concat xss : elems (concat xss) = concat (map (elems (K:=K) (V:=V)) xss).
Proof. induction xss; simpl; [done|]. by rewrite elems_app, IHxss. Qed.

Lemma elems_interleave xss ks : elems (interleave xss ks) = concat (map elems xss).
Proof.
  revert ks. induction xss as [|xs xss IH]; intros ks; simpl; [done|].
  rewrite elems_app. f_equal. destruct ks; simpl.
  - apply elems_concat.
  - apply IH.
Qed.

Lemma concat_map_snd (xss : list (list seg)) :
  concat (map snd (concat xss)) = concat (map (fun xs => concat (map snd xs)) xss).
Proof. induction xss; simpl; [done|]. by rewrite map_app, concat_app, IHxss. Qed.

Lemma flat_node id ks ch : flat (TNode id ks ch) = concat (map flat ch).
Proof. unfold flat at 1. simpl. rewrite concat_map_snd, map_map. done. Qed.

(** A usable induction principle. *)
Lemma tr_ind' (P : tr -> Prop) :
  (forall id kvs, P (TLeaf id kvs)) ->
  (forall id ks ch, Forall P ch -> P (TNode id ks ch)) -> forall t, P t.
Proof.
  intros HL HN. fix IH 1. intros [id kvs|id ks ch]; [apply HL|apply HN].
  induction ch as [|c ch IHch]; constructor; [apply IH|apply IHch].
Qed.

Lemma elems_trav t : elems (trav t) = flat t.
Proof.
  induction t as [id kvs|id ks ch IH] using tr_ind'.
  - simpl. unfold flat. simpl. rewrite app_nil_r. apply elems_emark.
  - simpl. rewrite elems_interleave, flat_node, map_map. f_equal.
    induction IH; simpl; [done|]. by f_equal.
Qed.

(** ** Sizes *)
Context (rl ri : nat).

(** The last child inherits the flag, the others are strict. *)
Fixpoint chs (P : bool -> tr -> Prop) (b : bool) ch : Prop :=
  match ch with
  | [] => False
  | c :: cs => match cs with [] => P b c | _ => P false c /\ chs P b cs end
  end.

Fixpoint shape (b : bool) (h : nat) t : Prop :=
  match h, t with
  | 0, TLeaf _ kvs => (if b then rl else 16) <= length kvs <= 64
  | S h', TNode _ ks ch =>
      (if b then ri else 16) <= length ks <= 64 /\ length ch = S (length ks) /\
      chs (fun b' => shape b' h') b ch
  | _, _ => False
  end.

(** The same with minimum [m] for the top node. *)
Definition nshape (m : nat) (b : bool) (h : nat) t : Prop :=
  match h, t with
  | 0, TLeaf _ kvs => m <= length kvs <= 64
  | S h', TNode _ ks ch =>
      m <= length ks <= 64 /\ length ch = S (length ks) /\ chs (fun b' => shape b' h') b ch
  | _, _ => False
  end.

Definition smin (b : bool) (h : nat) : nat :=
  if b then match h with 0 => rl | _ => ri end else 16.

Lemma shape_nshape b h t : shape b h t <-> nshape (smin b h) b h t.
Proof. by destruct h, t, b. Qed.

Lemma nshape_weaken m m' b h t : m' <= m -> nshape m b h t -> nshape m' b h t.
Proof.
  intros H. destruct h, t; simpl; try done.
  - lia.
  - intros ([??] & ? & ?). split_and!; auto; lia.
Qed.

Definition cflag (b : bool) (cr : list tr) : bool := match cr with [] => b | _ => false end.

Lemma chs_app P b cl c cr :
  chs P b (cl ++ c :: cr) <->
  Forall (P false) cl /\ P (cflag b cr) c /\ (cr <> [] -> chs P b cr).
Proof.
  induction cl as [|c' cl IH]; simpl.
  - destruct cr as [|c'' cr]; simpl; split.
    + intros H. split_and!; auto; try done. 
    + by intros (_ & ? & _).
    + intros [H1 H2]. split_and!; auto.
    + intros (_ & H1 & H2). split; [done|by apply H2].
  - destruct (cl ++ c :: cr) eqn:E; [by destruct cl|]. rewrite IH, Forall_cons. tauto.
Qed.

Lemma chs_elem P b ch c : chs P b ch -> c ∈ ch -> P false c \/ P b c.
Proof.
  intros H Hc. apply elem_of_list_split in Hc as (cl & cr & ->).
  apply chs_app in H as (_ & H & _). destruct cr; [by right|by left].
Qed.

Lemma chs_impl (P Q : bool -> tr -> Prop) b ch : (forall b c, c ∈ ch -> P b c -> Q b c) -> chs P b ch -> chs Q b ch.
Proof.
  induction ch as [|c ch IH]; simpl; [done|]. intros H.
  destruct ch as [|c' ch].
  - apply H. by constructor.
  - intros [H1 H2]. split; [apply H; [by constructor|done]|].
    apply IH; [|done]. intros b' c'' Hc. apply H. by constructor.
Qed.

(** ** Representation *)
Context (SYNC : Prop).

Definition node_rep (is : list (option (inner K A))) id ks ch : Prop :=
  exists aus, is !! id = Some (Some (mk_inner ks (map nid ch) aus)) /\
    length aus = length ch /\ (SYNC -> aus = map aug_of ch).

Fixpoint irep (is : list (option (inner K A))) (h : nat) t : Prop :=
  match h, t with
  | 0, TLeaf _ _ => True
  | S h', TNode id ks ch => node_rep is id ks ch /\ Forall (irep is h') ch
  | _, _ => False
  end.

Definition hd_id (segs : list seg) (n : option nat) : option nat :=
  match segs with [] => n | s :: _ => Some s.1 end.
Fixpoint last_id (p : option nat) (segs : list seg) : option nat :=
  match segs with [] => p | s :: segs' => last_id (Some s.1) segs' end.

Fixpoint linked (ls : list (option (leaf K V))) (p : option nat) (segs : list seg) (n : option nat) : Prop :=
  match segs with
  | [] => True
  | s :: segs' =>
      ls !! s.1 = Some (Some (mk_leaf s.2 p (hd_id segs' n))) /\ linked ls (Some s.1) segs' n
  end.

Record lrep (ls : list (option (leaf K V))) (segs : list seg) : Prop := {
  lrep_linked : linked ls None segs None;
  lrep_nodup : NoDup (map fst segs);
  lrep_live : forall i l, ls !! i = Some (Some l) -> i ∈ map fst segs;
}.

Definition droppable (n : inner K A) : Prop :=
  exists ks cs aus, inner_fits ks cs aus /\ n = mk_inner ks cs aus.
(** What is left of a root that lost its last key. *)
Definition spent (n : inner K A) : Prop := exists c a, n = mk_inner [] [c] [a].
(** An inner node in the store that is not part of the tree. *)
Definition stray (is : list (option (inner K A))) (t : tr) (i : nat) : Prop :=
  (exists n, is !! i = Some (Some n)) /\ i ∉ inner_ids t.

(** The root: a leaf of any size or an inner node with a key. *)
Definition rmin (h : nat) : nat := match h with 0 => 0 | _ => 1 end.

Record InvAt (T : tree K V A) (h : nat) t : Prop := {
  inv_root : t_root T = nid t;
  inv_irep : irep (inners (t_store T)) h t;
  inv_lrep : lrep (leaves (t_store T)) (leaf_seq t);
  inv_nodup : NoDup (inner_ids t);
  inv_sorted : ORD -> sortedm (trav t);
  inv_shape : nshape (rmin h) true h t;
  inv_len : t_len T = length (flat t);
  inv_aug : SYNC -> t_aug T = aug_of t \/ (flat t = [] /\ t_aug T = aug_default (V:=V));
  inv_garbage : forall i n, inners (t_store T) !! i = Some (Some n) -> i ∈ inner_ids t \/ spent n;
}.

(** ** Frame lemmas *)
Lemma irep_frame is is' h t : irep is h t ->
  (forall i, i ∈ inner_ids t -> is' !! i = is !! i) -> irep is' h t.
Proof.
  revert t. induction h as [|h IH]; intros [id kvs|id ks ch]; simpl; try done.
  intros [(aus & H1 & H2 & H3) Hf] He. split.
  - exists aus. split_and!; auto. rewrite He by constructor. done.
  - rewrite Forall_forall in Hf |- *. intros c Hc. apply IH; [by apply Hf|].
    intros i Hi. apply He. constructor. apply elem_of_list_In, in_concat.
    exists (inner_ids c). split; [apply in_map|]; by apply elem_of_list_In.
Qed.

Lemma irep_lt is h t i : irep is h t -> i ∈ inner_ids t -> i < length is.
Proof.
  revert t. induction h as [|h IH]; intros [id kvs|id ks ch]; simpl; try done.
  - intros _ H. by apply elem_of_nil in H.
  - intros [(aus & H1 & _) Hf] [->|Hi]%elem_of_cons; [by apply lookup_lt_Some in H1|].
    apply elem_of_list_In, in_concat in Hi as (l & Hl & Hi).
    apply in_map_iff in Hl as (c & <- & Hc). apply elem_of_list_In in Hc, Hi.
    rewrite Forall_forall in Hf. by apply (IH c); [apply Hf|].
Qed.

Lemma shape_height b h t : shape b h t -> h <= length (inner_ids t).
Proof.
  revert b t. induction h as [|h IH]; intros b [id kvs|id ks ch]; simpl; try (done || lia).
  intros (_ & Hl & Hc). destruct ch as [|c ch]; [done|]. simpl. rewrite app_length.
  apply (chs_app _ _ [] c ch) in Hc as (_ & Hc & _). apply IH in Hc. lia.
Qed.

Lemma nshape_height m b h t : nshape m b h t -> h <= length (inner_ids t).
Proof.
  destruct h as [|h], t as [id kvs|id ks ch]; simpl; try (done || lia).
  intros (_ & Hl & Hc). destruct ch as [|c ch]; [done|]. simpl. rewrite app_length.
  apply (chs_app _ _ [] c ch) in Hc as (_ & Hc & _). apply shape_height in Hc. lia.
Qed.

Lemma NoDup_bound (l : list nat) n : NoDup l -> (forall i, i ∈ l -> i < n) -> length l <= n.
Proof.
  intros Hn H. rewrite <- (seq_length n 0). apply NoDup_incl_length.
  - by apply NoDup_ListNoDup.
  - intros i Hi. apply in_seq. apply elem_of_list_In in Hi. specialize (H _ Hi). lia.
Qed.

Lemma fuel_ok is m b h t : nshape m b h t -> irep is h t -> NoDup (inner_ids t) -> h <= length is.
Proof.
  intros H1 H2 H3. apply nshape_height in H1.
  pose proof (NoDup_bound _ (length is) H3 (fun i => irep_lt is h t i H2)). lia.
Qed.

(** ** Linked leaves *)
Lemma hd_id_app s1 s2 n : hd_id (s1 ++ s2) n = hd_id s1 (hd_id s2 n).
Proof. by destruct s1. Qed.
Lemma last_id_app p s1 s2 : last_id p (s1 ++ s2) = last_id (last_id p s1) s2.
Proof. revert p. induction s1; intros p; simpl; auto. Qed.

Lemma linked_app ls p s1 s2 n :
  linked ls p (s1 ++ s2) n <-> linked ls p s1 (hd_id s2 n) /\ linked ls (last_id p s1) s2 n.
Proof.
  revert p. induction s1 as [|s s1 IH]; intros p; simpl; [tauto|].
  rewrite IH, hd_id_app. tauto.
Qed.

Lemma linked_frame ls ls' p segs n : linked ls p segs n ->
  (forall i, i ∈ map fst segs -> ls' !! i = ls !! i) -> linked ls' p segs n.
Proof.
  revert p. induction segs as [|s segs IH]; intros p; simpl; [done|].
  intros [H1 H2] He. split.
  - rewrite He by constructor. done.
  - apply IH; [done|]. intros i Hi. apply He. by constructor.
Qed.

(** Changing the [prev] link of the first leaf. *)
Lemma linked_set_prev ls p p' s segs n : linked ls p (s :: segs) n -> NoDup (map fst (s :: segs)) ->
  linked (<[s.1 := Some (mk_leaf s.2 p' (hd_id segs n))]> ls) p' (s :: segs) n.
Proof.
  simpl. intros [H1 H2] Hn. apply NoDup_cons in Hn as [Hn _]. split.
  - rewrite list_lookup_insert; [done|]. by apply lookup_lt_Some in H1.
  - eapply linked_frame; [done|]. intros i Hi. apply list_lookup_insert_ne.
    intros Hs. by rewrite Hs in Hn.
Qed.

Lemma linked_lookup ls p s1 id kvs s2 n : linked ls p (s1 ++ (id, kvs) :: s2) n ->
  ls !! id = Some (Some (mk_leaf kvs (last_id p s1) (hd_id s2 n))).
Proof. rewrite linked_app. simpl. tauto. Qed.

(** ** Paths from the root of a tree to one of its leaves *)
Inductive reach : tr -> nat -> list (K * V) -> list mark -> list mark -> list seg -> list seg -> visit_stack -> Prop :=
| reach_leaf id kvs : reach (TLeaf id kvs) id kvs [] [] [] [] []
| reach_node nid' kl kr cl c cr id kvs mA mB s1 s2 st :
    length kl = length cl -> length kr = length cr ->
    reach c id kvs mA mB s1 s2 st ->
    reach (TNode nid' (kl ++ kr) (cl ++ c :: cr)) id kvs (zl cl kl ++ mA) (mB ++ zr kr cr)
      (concat (map leaf_seq cl) ++ s1) (s2 ++ concat (map leaf_seq cr))
      (st ++ [(nid', length cl, nid c)]).

Lemma reach_trav t id kvs mA mB s1 s2 st : reach t id kvs mA mB s1 s2 st ->
  trav t = mA ++ map emark kvs ++ mB.
Proof.
  induction 1 as [id kvs|nid' kl kr cl c cr id kvs mA mB s1 s2 st H1 H2 Hr IH].
  - simpl. by rewrite app_nil_r.
  - rewrite trav_node by done. rewrite IH. by rewrite <- !app_assoc.
Qed.

Lemma elems_zl cl kl : length kl = length cl -> elems (zl cl kl) = concat (map flat cl).
Proof.
  revert kl. induction cl as [|c cl IH]; intros [|k kl] H; try done. injection H as H.
  unfold zl. simpl. rewrite !elems_app, elems_trav. simpl. rewrite app_nil_r. f_equal. by apply IH.
Qed.
Lemma elems_zr cr kr : length kr = length cr -> elems (zr kr cr) = concat (map flat cr).
Proof.
  revert kr. induction cr as [|c cr IH]; intros [|k kr] H; try done. injection H as H.
  unfold zr. simpl. rewrite !elems_app, elems_trav. f_equal. by apply IH.
Qed.

Lemma concat_map_flat ch : concat (map flat ch) = concat (map snd (concat (map leaf_seq ch))).
Proof. by rewrite concat_map_snd, map_map. Qed.

Lemma reach_seq t id kvs mA mB s1 s2 st : reach t id kvs mA mB s1 s2 st ->
  leaf_seq t = s1 ++ (id, kvs) :: s2 /\
    concat (map snd s1) = elems mA /\ concat (map snd s2) = elems mB.
Proof.
  induction 1 as [id kvs|nid' kl kr cl c cr id kvs mA mB s1 s2 st H1 H2 Hr (E & E1 & E2)].
  - done.
  - split_and!.
    + simpl. rewrite map_app, concat_app. simpl. rewrite E. by rewrite <- !app_assoc.
    + rewrite map_app, concat_app, elems_app, E1, elems_zl by done. by rewrite concat_map_flat.
    + rewrite map_app, concat_app, elems_app, E2, elems_zr by done. by rewrite concat_map_flat.
Qed.

Lemma chs_app2 P b ch1 ch2 : ch2 <> [] ->
  chs P b (ch1 ++ ch2) <-> Forall (P false) ch1 /\ chs P b ch2.
Proof.
  intros Hn. induction ch1 as [|c ch1 IH]; simpl.
  - split; [intros H; by split; [constructor|]|by intros [_ ?]].
  - destruct (ch1 ++ ch2) eqn:E; [by destruct ch1, ch2|]. rewrite IH, Forall_cons. tauto.
Qed.
Lemma chs_Forall P ch : ch <> [] -> Forall (P false) ch -> chs P false ch.
Proof.
  intros Hn Hf. induction Hf as [|c ch Hc Hf IH]; [done|]. simpl.
  destruct ch; [done|]. split; [done|]. by apply IH.
Qed.

End Logical.
