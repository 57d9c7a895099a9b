(** Proofs for OwnedSpec.v. *)
From stdpp Require Import list list_numbers.
From Coq Require Import Lia.
From Verif Require Import Base Slots BinSearch LeafNode InnerNode Store Tree Iterators Owned OwnedSpec.
From Verif Require Import SlotLemmas NodeLemmas Spec Order Logical Descent InsertProof InvLemmas InsertTop Lookup IntoProof.

(** ** Lists *)
Section Lists.
Context {X : Type} (f : X -> bool).

(** Up to and including the first hit; up to the first hit. *)
Fixpoint through (l : list X) : list X :=
  match l with [] => [] | x :: l' => if f x then [x] else x :: through l' end.
Fixpoint upto (l : list X) : list X :=
  match l with [] => [] | x :: l' => if f x then [] else x :: upto l' end.

Lemma through_prefix l : through l `prefix_of` l.
Proof.
  induction l as [|x l [k IH]]; simpl; [done|]. destruct (f x); [by exists l|]. exists k. by rewrite IH at 1.
Qed.
Lemma upto_prefix l : upto l `prefix_of` l.
Proof.
  induction l as [|x l [k IH]]; simpl; [done|]. destruct (f x); [by exists (x :: l)|]. exists k. by rewrite IH at 1.
Qed.
Lemma upto_clean l x : x ∈ upto l -> f x = false.
Proof.
  induction l as [|y l IH]; simpl; [by intros H%elem_of_nil|]. destruct (f y) eqn:E; [by intros H%elem_of_nil|].
  intros [-> | H]%elem_of_cons; auto.
Qed.
Lemma through_app l1 l2 : through (l1 ++ l2) = if existsb f l1 then through l1 else l1 ++ through l2.
Proof. induction l1 as [|x l IH]; simpl; [done|]. destruct (f x); simpl; [done|]. rewrite IH. by destruct (existsb f l). Qed.
Lemma upto_app l1 l2 : upto (l1 ++ l2) = if existsb f l1 then upto l1 else l1 ++ upto l2.
Proof. induction l1 as [|x l IH]; simpl; [done|]. destruct (f x); simpl; [done|]. rewrite IH. by destruct (existsb f l). Qed.
Lemma through_all l : existsb f l = false -> through l = l.
Proof. induction l as [|x l IH]; simpl; [done|]. destruct (f x); simpl; [done|]. intros. by rewrite IH. Qed.
Lemma upto_all l : existsb f l = false -> upto l = l.
Proof. induction l as [|x l IH]; simpl; [done|]. destruct (f x); simpl; [done|]. intros. by rewrite IH. Qed.
Lemma existsb_hit l : existsb f l = true -> exists x, x ∈ l /\ f x = true.
Proof. intros (x & H & E)%existsb_exists. exists x. split; [by apply elem_of_list_In|done]. Qed.
Lemma existsb_clean l x : existsb f l = false -> x ∈ l -> f x = false.
Proof.
  intros H Hx. destruct (f x) eqn:E; [|done]. assert (existsb f l = true); [|congruence].
  apply existsb_exists. exists x. split; [by apply elem_of_list_In|done].
Qed.
Lemma through_hit l x : x ∈ l -> x ∉ through l -> exists y, y ∈ through l /\ f y = true.
Proof.
  induction l as [|z l IH]; simpl; [by intros H%elem_of_nil|]. destruct (f z) eqn:E.
  - intros _ _. exists z. split; [by apply elem_of_list_singleton|done].
  - rewrite !elem_of_cons. intros [-> | H] Hn; [by destruct Hn; left|].
    destruct IH as (y & Hy & Ey); [done|by intros Hx; apply Hn; right|]. exists y. split; [by right|done].
Qed.
End Lists.

Lemma prefix_elem {X} (l1 l2 : list X) x : l1 `prefix_of` l2 -> x ∈ l1 -> x ∈ l2.
Proof. intros [k ->] H. apply elem_of_app. by left. Qed.
Lemma prefix_NoDup {X} (l1 l2 : list X) : l1 `prefix_of` l2 -> NoDup l2 -> NoDup l1.
Proof. intros [k ->] H. by apply NoDup_app in H as [H _]. Qed.

(** Choosing a prefix of every group keeps a list of groups without duplicates. *)
Lemma concat_prefix_elem {X} (gs' gs : list (list X)) x :
  Forall2 prefix gs' gs -> x ∈ concat gs' -> x ∈ concat gs.
Proof.
  induction 1 as [|l' l gs' gs Hg _ IH]; simpl; [done|]. rewrite !elem_of_app.
  intros [H|H]; [left; by eapply prefix_elem|right; auto].
Qed.
Lemma concat_prefix_NoDup {X} (gs' gs : list (list X)) :
  Forall2 prefix gs' gs -> NoDup (concat gs) -> NoDup (concat gs').
Proof.
  induction 1 as [|l' l gs' gs Hg Hr IH]; simpl; [done|]. rewrite !NoDup_app. intros (H1 & H2 & H3). split_and!.
  - by eapply prefix_NoDup.
  - intros x Hx Hc. apply (H2 x); [by eapply prefix_elem|by eapply concat_prefix_elem].
  - auto.
Qed.

(** ** Running destructors *)
Section Run.
Context (bad : place -> bool).

Definition run (l : list place) (d : drops) : drops := foldl (fun d p => drop_at bad p d) d l.

Lemma run_app l1 l2 d : run (l1 ++ l2) d = run l2 (run l1 d).
Proof. apply foldl_app. Qed.

Lemma run_aborted l tr : run l (mkDrops tr Aborted) = mkDrops tr Aborted.
Proof. induction l as [|p l IH]; [done|]. exact IH. Qed.

Lemma panics_cons p l : panics bad (p :: l) = (if bad p then 1 else 0) + panics bad l.
Proof. unfold panics. rewrite filter_cons. destruct (bad p); simpl; done. Qed.

Lemma run_split l tr m : exists l1, l1 `prefix_of` l /\ dropped (run l (mkDrops tr m)) = tr ++ l1 /\
  mood_of (run l (mkDrops tr m)) = mood_after m (panics bad l1) /\
  (l1 = l \/ mood_of (run l (mkDrops tr m)) = Aborted).
Proof.
  revert tr m. induction l as [|p l IH]; intros tr m.
  { exists []. rewrite app_nil_r. split_and!; try done; [by destruct m|by left]. }
  destruct m; [| |].
  3: { rewrite run_aborted. exists []. rewrite app_nil_r. split_and!; try done; [by eexists|by right]. }
  all: change (run (p :: l) ?d) with (run l (drop_at bad p d)); unfold drop_at; cbn [mood_of dropped].
  - destruct (IH (tr ++ [p]) (if bad p then Unwinding else Calm)) as (l1 & Hp & E1 & E2 & E3).
    exists (p :: l1). rewrite E1, E2, <- app_assoc, panics_cons. split_and!; try done.
    + by apply prefix_cons.
    + destruct (bad p); [|done]. by destruct (panics bad l1).
    + destruct E3 as [-> |E3]; [by left|right; congruence].
  - destruct (bad p) eqn:Eb.
    + rewrite run_aborted. exists [p]. split_and!; try done; [by eexists| |by right].
      by rewrite panics_cons, Eb.
    + destruct (IH (tr ++ [p]) Unwinding) as (l1 & Hp & E1 & E2 & E3).
      exists (p :: l1). rewrite E1, E2, <- app_assoc, panics_cons, Eb. split_and!; try done.
      * by apply prefix_cons.
      * destruct E3 as [-> |E3]; [by left|right; congruence].
Qed.

Lemma slot_get_full {X} (s : slots X) i : full_at s i -> exists x, slot_get s i = Ok x.
Proof. intros [x E]. exists x. unfold slot_get. by rewrite E. Qed.

Lemma drop_loop_ok {X} (mk : nat -> place) (s : slots X) i n d : (forall j, i <= j < i + n -> full_at s j) ->
  drop_loop bad mk s i n d = Ok (run (through bad (map mk (seq i n))) d, existsb bad (map mk (seq i n))).
Proof.
  revert i d. induction n as [|n IH]; intros i d H; [done|]. cbn [drop_loop seq map through existsb].
  destruct (slot_get_full s i) as [x ->]; [apply H; lia|]. rewrite obind_Ok.
  destruct (bad (mk i)); [done|]. rewrite IH by (intros; apply H; lia). done.
Qed.
End Run.

Section Nodes.
Context {K V A : Type} {PF : Profile}.
Notation inner := (inner K A).
Notation leaf := (leaf K V).

Definition inner_places (id : nat) (n : inner) : list place :=
  map (IKey id) (seq 0 (i_size n)) ++ map (IAug id) (seq 0 (i_size n + 1)).
Definition leaf_places (id : nat) (n : leaf) : list place :=
  map (LKey id) (seq 0 (l_size n)) ++ map (LVal id) (seq 0 (l_size n)).

(** The elements of a vector of boxes, with their places. *)
Fixpoint groups {X} (pl : nat -> X -> list place) (id : nat) (l : list (option X)) : list (nat * list place) :=
  match l with
  | [] => []
  | None :: l' => groups pl (S id) l'
  | Some x :: l' => (id, pl id x) :: groups pl (S id) l'
  end.

Lemma groups_elem {X} (pl : nat -> X -> list place) k (l : list (option X)) p :
  p ∈ concat (map snd (groups pl k l)) <-> exists i x, l !! i = Some (Some x) /\ p ∈ pl (k + i) x.
Proof.
  revert k. induction l as [|o l IH]; intros k; cbn [groups].
  { split; [by intros H%elem_of_nil|]. by intros (i & x & H & _). }
  assert (p ∈ concat (map snd (groups pl (S k) l)) <-> exists i x, (o :: l) !! S i = Some (Some x) /\ p ∈ pl (k + S i) x) as IH'.
  { rewrite IH. split; intros (i & x & H & Hp); exists i, x; (split; [done|]); [by rewrite <- plus_n_Sm|by rewrite <- plus_n_Sm in Hp]. }
  destruct o as [x|]; simpl.
  - rewrite elem_of_app, IH'. split.
    + intros [H|(i & y & H & Hp)]; [exists 0, x; by rewrite Nat.add_0_r|by exists (S i), y].
    + intros ([|i] & y & H & Hp); [left; injection H as ->; by rewrite Nat.add_0_r in Hp|right; by exists i, y].
  - rewrite IH'. split.
    + intros (i & y & H & Hp). by exists (S i), y.
    + intros ([|i] & y & H & Hp); [done|by exists i, y].
Qed.

Lemma groups_NoDup {X} (pl : nat -> X -> list place) k (l : list (option X)) :
  (forall i x, l !! i = Some (Some x) -> NoDup (pl (k + i) x)) ->
  (forall i j x y p, p ∈ pl i x -> p ∈ pl j y -> i = j) -> NoDup (concat (map snd (groups pl k l))).
Proof.
  intros H Hd. revert k H. induction l as [|o l IH]; intros k H; cbn [groups]; [constructor|].
  assert (NoDup (concat (map snd (groups pl (S k) l)))) as IH'.
  { apply IH. intros i x Hx. specialize (H (S i) x Hx). by rewrite <- plus_n_Sm in H. }
  destruct o as [x|]; [|done]. simpl. apply NoDup_app. split_and!; [|intros p Hp Hq|done].
  - specialize (H 0 x eq_refl). by rewrite Nat.add_0_r in H.
  - apply groups_elem in Hq as (i & y & _ & Hq). pose proof (Hd _ _ _ _ _ Hp Hq). lia.
Qed.

Lemma groups_take {X} (pl : nat -> X -> list place) k (l : list (option X)) g1 id g g2 :
  groups pl k l = g1 ++ (id, g) :: g2 -> groups pl k (take (id - k) l) = g1 /\ k <= id.
Proof.
  revert k g1. induction l as [|o l IH]; intros k g1; cbn [groups]; [by destruct g1|].
  destruct o as [x|].
  - destruct g1 as [|y g1]; simpl.
    + intros [= <- _ _]. rewrite Nat.sub_diag. simpl. split; [done|lia].
    + intros [= <- E]. apply IH in E as [E ?]. split; [|lia].
      replace (id - k) with (S (id - S k)) by lia. cbn [take groups]. by rewrite E.
  - intros E. apply IH in E as [E ?]. split; [|lia]. replace (id - k) with (S (id - S k)) by lia. cbn [take groups]. by rewrite E.
Qed.

Lemma groups_ids {X} (pl : nat -> X -> list place) k (l : list (option X)) id g :
  (id, g) ∈ groups pl k l -> exists x, l !! (id - k) = Some (Some x) /\ g = pl id x /\ k <= id.
Proof.
  revert k. induction l as [|o l IH]; intros k; cbn [groups]; [by intros H%elem_of_nil|].
  assert ((id, g) ∈ groups pl (S k) l -> exists x, (o :: l) !! (id - k) = Some (Some x) /\ g = pl id x /\ k <= id) as IH'.
  { intros (x & H & E & ?)%IH. exists x. replace (id - k) with (S (id - S k)) by lia. split_and!; [done|done|lia]. }
  destruct o as [x|]; [|done]. intros [[= -> ->]|H]%elem_of_cons; [|auto]. exists x. by rewrite Nat.sub_diag.
Qed.

(** A node whose slots up to its size are full. *)
Definition whole (n : inner) : Prop :=
  (forall i, full_at (i_keys n) i <-> i < i_size n) /\ (forall i, full_at (i_augs n) i <-> i < i_size n + 1).
Definition lwhole (n : leaf) : Prop :=
  (forall i, full_at (l_keys n) i <-> i < l_size n) /\ (forall i, full_at (l_vals n) i <-> i < l_size n).

Lemma full_mk {X} n (l : list X) i : length l <= n -> full_at (mk_slots n l) i <-> i < length l.
Proof.
  intros Hn. split.
  - intros [x E]. destruct (decide (i < length l)) as [D|D]; [done|].
    destruct (decide (i < n)); [rewrite mk_slots_lookup_None in E by lia; congruence|].
    apply lookup_lt_Some in E. rewrite mk_slots_length in E by lia. lia.
  - intros H. destruct (lookup_lt_is_Some_2 l i H) as [x Hx]. exists x. by apply mk_slots_lookup.
Qed.

Lemma droppable_whole n : droppable n -> whole n.
Proof.
  intros (ks & cs & aus & (H1 & H2 & H3) & ->). unfold INNER_N, INNER_C in *.
  split; intros i; cbn [i_keys i_augs i_size mk_inner]; rewrite full_mk; unfold INNER_N, INNER_C; lia.
Qed.

Lemma leaf_whole kvs p q : length kvs <= 64 -> lwhole (mk_leaf kvs p q : leaf).
Proof.
  intros H. split; intros i; cbn [l_keys l_vals l_size mk_leaf]; rewrite full_mk; unfold LEAF_N; rewrite ?keysof_length, ?valsof_length; lia.
Qed.

Lemma inner_drop_p_ok bad id n d : whole n ->
  inner_drop_p bad id n d = Ok (run bad (through bad (inner_places id n)) d).
Proof.
  intros [H1 H2]. unfold inner_drop_p, inner_places.
  rewrite drop_loop_ok by (intros; apply H1; lia). rewrite obind_Ok, through_app.
  destruct (existsb bad _) eqn:E; [done|]. rewrite drop_loop_ok by (intros; apply H2; lia). rewrite obind_Ok, run_app.
  by rewrite (through_all bad (map (IKey id) _)) by done.
Qed.

Lemma drop_inners_p_ok bad k (l : list (option inner)) d : (forall i n, l !! i = Some (Some n) -> whole n) ->
  drop_inners_p bad k l d = Ok (run bad (concat (map (through bad) (map snd (groups inner_places k l)))) d).
Proof.
  revert k d. induction l as [|o l IH]; intros k d H; [done|]. cbn [drop_inners_p groups].
  assert (forall i n, l !! i = Some (Some n) -> whole n) as H' by (intros i; apply (H (S i))).
  destruct o as [n|]; [|by apply IH]. rewrite inner_drop_p_ok by (by apply (H 0)). rewrite obind_Ok, IH by done.
  simpl. by rewrite run_app.
Qed.

Lemma elem_seq (f : nat -> place) n p : p ∈ map f (seq 0 n) <-> exists i, p = f i /\ i < n.
Proof.
  rewrite elem_of_list_In, in_map_iff. setoid_rewrite in_seq. split; intros (i & H1 & H2); exists i; (split; [done|lia]).
Qed.

Lemma inner_places_elem id n p : whole n -> p ∈ inner_places id n <->
  exists i, (p = IKey id i /\ full_at (i_keys n) i) \/ (p = IAug id i /\ full_at (i_augs n) i).
Proof.
  intros [H1 H2]. unfold inner_places. rewrite elem_of_app, !elem_seq. setoid_rewrite H1. setoid_rewrite H2. firstorder.
Qed.
Lemma leaf_places_elem id n p : lwhole n -> p ∈ leaf_places id n <->
  exists i, (p = LKey id i /\ full_at (l_keys n) i) \/ (p = LVal id i /\ full_at (l_vals n) i).
Proof.
  intros [H1 H2]. unfold leaf_places. rewrite elem_of_app, !elem_seq. setoid_rewrite H1. setoid_rewrite H2. firstorder.
Qed.

Lemma NoDup_seq_map (f : nat -> place) n : (forall i j, f i = f j -> i = j) -> NoDup (map f (seq 0 n)).
Proof. intros H. assert (Inj (=) (=) f) by exact H. apply (NoDup_fmap_2 f). apply NoDup_ListNoDup, seq_NoDup. Qed.

Lemma inner_places_NoDup id n : NoDup (inner_places id n).
Proof.
  apply NoDup_app. split_and!.
  - apply NoDup_seq_map. congruence.
  - intros p (i & -> & _)%elem_seq (j & H & _)%elem_seq. done.
  - apply NoDup_seq_map. congruence.
Qed.
Lemma leaf_places_NoDup id n : NoDup (leaf_places id n).
Proof.
  apply NoDup_app. split_and!.
  - apply NoDup_seq_map. congruence.
  - intros p (i & -> & _)%elem_seq (j & H & _)%elem_seq. done.
  - apply NoDup_seq_map. congruence.
Qed.
Lemma inner_places_in id n p : p ∈ inner_places id n -> in_inner id p.
Proof. intros [H|H]%elem_of_app; apply elem_seq in H as (i & -> & _); done. Qed.
Lemma leaf_places_in id n p : p ∈ leaf_places id n -> in_leaf p /\ match p with LKey j _ | LVal j _ => j = id | _ => True end.
Proof. intros [H|H]%elem_of_app; apply elem_seq in H as (i & -> & _); done. Qed.

Definition inner_all (s : store K V A) : list place := concat (map snd (groups inner_places 0 (inners s))).
Definition leaf_all (s : store K V A) : list place := concat (map snd (groups leaf_places 0 (leaves s))).

Lemma inner_all_elem (s : store K V A) p : (forall i n, inners s !! i = Some (Some n) -> whole n) ->
  p ∈ inner_all s <-> holds s p /\ ~ in_leaf p.
Proof.
  intros H. unfold inner_all. rewrite groups_elem. cbn [plus]. split.
  - intros (i & n & E & Hp). rewrite inner_places_elem in Hp by eauto.
    destruct Hp as (j & [[-> Hj]|[-> Hj]]); (split; [by exists n|by intros []]).
  - intros [Hh Hl]. destruct p as [? ?|? ?|id i|id i|]; try done; try (by destruct Hl);
      destruct Hh as (n & E & Hf); exists id, n; (split; [done|]); rewrite inner_places_elem by eauto; exists i; [by left|by right].
Qed.
Lemma leaf_all_elem (s : store K V A) p : (forall i n, leaves s !! i = Some (Some n) -> lwhole n) ->
  p ∈ leaf_all s <-> holds s p /\ in_leaf p.
Proof.
  intros H. unfold leaf_all. rewrite groups_elem. cbn [plus]. split.
  - intros (i & n & E & Hp). rewrite leaf_places_elem in Hp by eauto.
    destruct Hp as (j & [[-> Hj]|[-> Hj]]); (split; [by exists n|done]).
  - intros [Hh Hl]. destruct p as [id i|id i|? ?|? ?|]; try done;
      destruct Hh as (n & E & Hf); exists id, n; (split; [done|]); rewrite leaf_places_elem by eauto; exists i; [by left|by right].
Qed.
Lemma inner_all_NoDup (s : store K V A) : NoDup (inner_all s).
Proof.
  apply groups_NoDup; [intros; apply inner_places_NoDup|].
  intros i j x y p Hx%inner_places_in Hy%inner_places_in. destruct p; simpl in *; try done; congruence.
Qed.
Lemma leaf_all_NoDup (s : store K V A) : NoDup (leaf_all s).
Proof.
  apply groups_NoDup; [intros; apply leaf_places_NoDup|].
  intros i j x y p [Hl Hx]%leaf_places_in [_ Hy]%leaf_places_in. destruct p; simpl in *; try done; congruence.
Qed.
End Nodes.

(** ** The consuming iterator *)
Section Into.
Context {K V A : Type} {KO : KeyOps K} {PF : Profile} {OM : OrdMode} {OI : OrdIf K} {AO : AugOps K V A}.
Notation seg := (nat * list (K * V))%type.
Notation into_iter := (into_iter K V A).

(** Where the entries are, in order. *)
Definition poss (segs : list seg) : list (nat * nat) :=
  concat (map (fun s => map (pair s.1) (seq 0 (length s.2))) segs).
Definition ent (e : nat * nat) : list place := [LKey e.1 e.2; LVal e.1 e.2].
Definition ents (l : list (nat * nat)) : list place := concat (map ent l).

Lemma poss_length segs : length (poss segs) = before segs.
Proof.
  unfold poss, before. induction segs as [|s segs IH]; [done|]. simpl. by rewrite !app_length, map_length, seq_length, IH.
Qed.

Lemma poss_lookup segs s1 id kvs s2 i : segs = s1 ++ (id, kvs) :: s2 -> i < length kvs ->
  poss segs !! (before s1 + i) = Some (id, i).
Proof.
  intros -> Hi. unfold poss. rewrite map_app, concat_app. fold (poss s1).
  rewrite lookup_app_r by (rewrite poss_length; lia). rewrite poss_length. replace (before s1 + i - before s1) with i by lia.
  simpl. rewrite lookup_app_l by (rewrite map_length, seq_length; lia).
  change (map (pair id) (seq 0 (length kvs))) with (pair id <$> seq 0 (length kvs)).
  rewrite list_lookup_fmap, lookup_seq_lt by lia. done.
Qed.

Lemma poss_elem segs id i : (id, i) ∈ poss segs <-> exists kvs, (id, kvs) ∈ segs /\ i < length kvs.
Proof.
  unfold poss. rewrite elem_of_list_In, in_concat. split.
  - intros (l & Hl & Hi). apply in_map_iff in Hl as ([id' kvs] & <- & Hs). apply in_map_iff in Hi as (j & [= <- <-] & Hj).
    apply in_seq in Hj. exists kvs. split; [by apply elem_of_list_In|]. simpl in Hj. lia.
  - intros (kvs & Hs & Hi). eexists. split; [apply in_map_iff; exists (id, kvs); split; [done|by apply elem_of_list_In]|].
    apply in_map_iff. exists i. split; [done|]. apply in_seq. simpl. lia.
Qed.

Lemma poss_NoDup segs : NoDup (map fst segs) -> NoDup (poss segs).
Proof.
  induction segs as [|[id kvs] segs IH]; simpl; [constructor|]. intros [Hn Hd]%NoDup_cons.
  unfold poss. simpl. fold (poss segs). apply NoDup_app. split_and!; [| |auto].
  - apply (NoDup_fmap_2 (pair id)). apply NoDup_ListNoDup, seq_NoDup.
  - intros [id' i] H1 H2. apply elem_of_list_In, in_map_iff in H1 as (j & [= <- <-] & _).
    apply poss_elem in H2 as (kvs' & H2 & _). apply Hn. apply elem_of_list_In, in_map_iff. exists (id, kvs'). split; [done|by apply elem_of_list_In].
Qed.

Lemma sub_elem {X} (l : list X) lo hi x : x ∈ sub l lo hi <-> exists i, lo <= i < hi /\ l !! i = Some x.
Proof.
  unfold sub. rewrite elem_of_list_lookup. split.
  - intros [i Hi]. apply lookup_take_Some in Hi as [Hi Hl]. rewrite lookup_drop in Hi. exists (lo + i). split; [lia|done].
  - intros (i & Hr & Hi). exists (i - lo). rewrite lookup_take by lia. rewrite lookup_drop. by replace (lo + (i - lo)) with i by lia.
Qed.
Lemma sub_NoDup {X} (l : list X) lo hi : NoDup l -> NoDup (sub l lo hi).
Proof.
  intros H. unfold sub. rewrite <- (take_drop lo l) in H. apply NoDup_app in H as (_ & _ & H).
  rewrite <- (take_drop (hi - lo) (drop lo l)) in H. by apply NoDup_app in H as (? & _ & _).
Qed.

Lemma ents_elem l p : p ∈ ents l <-> exists id i, (id, i) ∈ l /\ (p = LKey id i \/ p = LVal id i).
Proof.
  unfold ents. rewrite elem_of_list_In, in_concat. split.
  - intros (g & Hg & Hp). apply in_map_iff in Hg as ([id i] & <- & Hl). exists id, i. split; [by apply elem_of_list_In|].
    destruct Hp as [<-|[<-|[]]]; [by left|by right].
  - intros (id & i & Hl & Hp). exists (ent (id, i)). split; [apply in_map_iff; exists (id, i); split; [done|by apply elem_of_list_In]|].
    destruct Hp as [-> | ->]; [by left|by right; left].
Qed.
Lemma ents_NoDup l : NoDup l -> NoDup (ents l).
Proof.
  induction l as [|[id i] l IH]; [constructor|]. intros [Hn Hd]%NoDup_cons. unfold ents. simpl. fold (ents l).
  assert (LKey id i ∉ ents l) as H1. { intros (? & ? & Hl & [[= <- <-]|?])%ents_elem; done. }
  assert (LVal id i ∉ ents l) as H2. { intros (? & ? & Hl & [?|[= <- <-]])%ents_elem; done. }
  constructor; [by intros [?|?]%elem_of_cons|]. constructor; [done|auto].
Qed.
Lemma ents_prefix l1 l2 : l1 `prefix_of` l2 -> ents l1 `prefix_of` ents l2.
Proof. intros [k ->]. exists (ents k). unfold ents. by rewrite map_app, concat_app. Qed.

Lemma next_loop_pos fuel (it : into_iter) kv it' : into_iter_next_loop fuel it = Ok (Some kv, it') -> 0 < (ii_pos it').2.
Proof.
  revert it. induction fuel as [|fuel IH]; intros it; cbn [into_iter_next_loop]; (destruct (decide _); [done|]); [done|].
  destruct (ii_pos it) as [id off]. destruct (get_leaf _ _) as [l| | | |]; cbn [obind]; try done.
  destruct (decide _).
  - destruct (leaf_take_data l off) as [[kv' l']| | | |]; cbn [obind]; try done. intros [= _ <-]. simpl. lia.
  - destruct (l_next l); [|done]. apply IH.
Qed.

Definition ebad (bad : place -> bool) (e : nat * nat) : bool := existsb bad (ent e).

Lemma drain_p_ok bad segs (it : into_iter) lo hi fuel d : instate segs it lo hi -> hi - lo < fuel ->
  exists it', drain_p bad fuel it d = Ok (run bad (ents (through (ebad bad) (sub (poss segs) lo hi))) d, it') /\
    inners (ii_store it') = inners (ii_store it).
Proof.
  revert it lo d. induction fuel as [|fuel IH]; intros it lo d H Hf; [lia|]. cbn [drain_p].
  pose proof (in_range _ _ _ _ H) as Hr.
  destruct (into_next_ok _ _ _ _ H) as (it1 & E & H1 & Hi & _). rewrite E, obind_Ok.
  destruct (decide (lo < hi)) as [D|D].
  - destruct (lookup_lt_is_Some_2 (concat (map snd segs)) lo) as [x Hx]; [unfold before in Hr; lia|].
    rewrite (sub_cons (concat (map snd segs)) lo hi x) in * by done. cbn [head] in *.
    pose proof (next_loop_pos _ _ _ _ E) as Hp.
    destruct (in_pos _ _ _ _ H1) as (s1 & id & kvs & s2 & Es & Hb & Ep). rewrite Ep in *. cbn [snd] in Hp.
    assert (poss segs !! lo = Some (id, S lo - before s1 - 1)) as Hl.
    { rewrite <- (poss_lookup segs s1 id kvs s2 (S lo - before s1 - 1)) by (done || lia). f_equal. lia. }
    rewrite (sub_cons _ lo hi _ Hl D). cbn [through]. unfold ebad at 1. cbn [existsb ent fst snd]. rewrite orb_false_r.
    destruct (bad _ || bad _).
    + exists it1. done.
    + destruct (IH it1 (S lo) (drop_at bad (LVal id (S lo - before s1 - 1)) (drop_at bad (LKey id (S lo - before s1 - 1)) d)) H1) as (it' & -> & Hi'); [lia|].
      exists it'. split; [done|congruence].
  - assert (lo = hi) as -> by lia. rewrite sub_nil. cbn [head]. exists it1. by rewrite sub_nil.
Qed.

Lemma into_drop_p_ok bad segs (it : into_iter) lo hi d : instate segs it lo hi ->
  (forall i n, inners (ii_store it) !! i = Some (Some n) -> whole n) ->
  into_drop_p bad it d = Ok (run bad (ents (through (ebad bad) (sub (poss segs) lo hi)) ++
    concat (map (through bad) (map snd (groups inner_places 0 (inners (ii_store it)))))) d).
Proof.
  intros H Hw. unfold into_drop_p. rewrite (in_len _ _ _ _ H).
  destruct (drain_p_ok bad segs it lo hi (S (hi - lo)) d H) as (it' & -> & Hi); [lia|]. rewrite obind_Ok, Hi.
  rewrite drop_inners_p_ok by done. by rewrite run_app.
Qed.

Lemma in_holds segs (it : into_iter) lo hi p : instate segs it lo hi -> in_leaf p ->
  holds (ii_store it) p <-> p ∈ ents (sub (poss segs) lo hi).
Proof.
  intros H Hl. rewrite ents_elem. setoid_rewrite sub_elem.
  assert (forall id i l, leaves (ii_store it) !! id = Some (Some l) ->
    (full_at (l_keys l) i <-> exists j, lo <= j < hi /\ poss segs !! j = Some (id, i)) /\
    (full_at (l_vals l) i <-> exists j, lo <= j < hi /\ poss segs !! j = Some (id, i))) as Hw.
  { intros id i l El. pose proof (in_live _ _ _ _ H _ _ El) as Hin.
    apply elem_of_list_In, in_map_iff in Hin as ([id' kvs] & <- & Hin). simpl in *.
    pose proof (in_size _ _ _ _ H) as Hz. rewrite Forall_forall in Hz. specialize (Hz _ (proj2 (elem_of_list_In _ _) Hin)). simpl in Hz.
    apply elem_of_list_In, elem_of_list_split in Hin as (s1 & s2 & Es).
    destruct (in_leaves _ _ _ _ H _ _ _ _ Es) as (l' & El' & _ & _ & _ & Hk & Hv).
    rewrite El in El'. injection El' as <-.
    assert ((exists j, lo <= j < hi /\ poss segs !! j = Some (id', i)) <-> lo <= before s1 + i < hi /\ i < length kvs) as ->.
    { split.
      - intros (j & Hj & Hp). assert ((id', i) ∈ poss segs) as He by (by eapply elem_of_list_lookup_2).
        apply poss_elem in He as (kvs' & He & Hi). apply elem_of_list_split in He as (s1' & s2' & Es').
        destruct (fst_unique segs s1 id' kvs s2 s1' kvs' s2' (in_nodup _ _ _ _ H) Es Es') as (<- & <- & <-).
        assert (j = before s1 + i) as ->; [|done].
        eapply NoDup_lookup; [by apply poss_NoDup, H|exact Hp|by eapply poss_lookup].
      - intros [Hj Hi]. exists (before s1 + i). split; [done|]. by eapply poss_lookup. }
    unfold full_at. rewrite Hk, Hv. split; (split; [intros [x E]|intros [Hj Hi]]).
    - destruct (decide (i < 64)); [|done]. destruct (decide _); [|congruence]. injection E as E.
      apply lookup_lt_Some in E. rewrite keysof_length in E. done.
    - rewrite !decide_True by lia. destruct (lookup_lt_is_Some_2 (keysof kvs) i) as [x ->]; [by rewrite keysof_length|by exists x].
    - destruct (decide (i < 64)); [|done]. destruct (decide _); [|congruence]. injection E as E.
      apply lookup_lt_Some in E. rewrite valsof_length in E. done.
    - rewrite !decide_True by lia. destruct (lookup_lt_is_Some_2 (valsof kvs) i) as [x ->]; [by rewrite valsof_length|by exists x]. }
  assert (forall id i j, poss segs !! j = Some (id, i) -> exists l, leaves (ii_store it) !! id = Some (Some l)) as Hlive.
  { intros id i j Hp. assert ((id, i) ∈ poss segs) as He by (by eapply elem_of_list_lookup_2).
    apply poss_elem in He as (kvs & He & Hi). apply elem_of_list_split in He as (s1 & s2 & Es).
    destruct (in_leaves _ _ _ _ H _ _ _ _ Es) as (l & El & _). by exists l. }
  destruct p as [id i|id i| | |]; try done; simpl; split.
  - intros (l & El & Hf). exists id, i. split; [by apply (proj1 (Hw id i l El))|by left].
  - intros (id' & i' & He & [[= <- <-]|?]); [|done]. destruct He as (j & Hj & Hp). destruct (Hlive _ _ _ Hp) as [l El].
    exists l. split; [done|]. apply (proj1 (Hw id i l El)). by exists j.
  - intros (l & El & Hf). exists id, i. split; [by apply (proj2 (Hw id i l El))|by right].
  - intros (id' & i' & He & [?|[= <- <-]]); [done|]. destruct He as (j & Hj & Hp). destruct (Hlive _ _ _ Hp) as [l El].
    exists l. split; [done|]. apply (proj2 (Hw id i l El)). by exists j.
Qed.
End Into.

(** ** What a sequence of destructor calls amounts to *)
Section Plan.
Context (bad : place -> bool).

Definition all_of (P : list (nat * nat)) (gs : list (list place)) (tl : list place) : list place :=
  ents P ++ concat gs ++ tl.
Definition plan_of (P : list (nat * nat)) (gs : list (list place)) (tl : list place) : list place :=
  ents (through (ebad bad) P) ++ concat (map (through bad) gs) ++ tl.

Lemma plan_groups P gs tl : Forall2 prefix
  (ents (through (ebad bad) P) :: map (through bad) gs ++ [tl]) (ents P :: gs ++ [tl]).
Proof.
  constructor; [apply ents_prefix, through_prefix|]. apply Forall2_app; [|by constructor].
  induction gs as [|g gs IH]; simpl; constructor; [apply through_prefix|done].
Qed.
Lemma all_of_concat P gs tl : all_of P gs tl = concat (ents P :: gs ++ [tl]).
Proof. unfold all_of. simpl. rewrite concat_app. simpl. by rewrite app_nil_r. Qed.
Lemma plan_of_concat P gs tl : plan_of P gs tl = concat (ents (through (ebad bad) P) :: map (through bad) gs ++ [tl]).
Proof. unfold plan_of. simpl. rewrite concat_app. simpl. by rewrite app_nil_r. Qed.

Lemma plan_missing P gs tl p : Forall (fun g => exists id, Forall (in_inner id) g) gs ->
  p ∈ all_of P gs tl -> p ∉ plan_of P gs tl -> exists q, q ∈ plan_of P gs tl /\ bad q = true /\ shields q p.
Proof.
  intros Hg. unfold all_of, plan_of. rewrite !elem_of_app. intros [Hp|[Hp|Hp]] Hn.
  - apply ents_elem in Hp as (id & i & Hi & Hp).
    destruct (through_hit (ebad bad) P (id, i)) as (e & He & Eb); [done| |].
    { intros Hx. apply Hn. left. apply ents_elem. by exists id, i. }
    apply existsb_hit in Eb as (q & Hq & Eb). exists q.
    assert (q ∈ ents (through (ebad bad) P)) as Hq'.
    { apply ents_elem. exists e.1, e.2. rewrite <- surjective_pairing. split; [done|].
      unfold ent in Hq. apply elem_of_cons in Hq as [->|Hq]; [by left|]. apply elem_of_list_singleton in Hq as ->. by right. }
    split_and!; [apply elem_of_app; by left|done|].
    left. apply ents_elem in Hq' as (? & ? & _ & [-> | ->]); destruct Hp as [-> | ->]; done.
  - apply elem_of_list_In, in_concat in Hp as (g & Hgs & Hp). apply elem_of_list_In in Hgs, Hp.
    rewrite Forall_forall in Hg. destruct (Hg g Hgs) as [id Hid]. rewrite Forall_forall in Hid.
    assert (forall x, x ∈ through bad g -> x ∈ concat (map (through bad) gs)) as Hsub.
    { intros x Hx. apply elem_of_list_In, in_concat. exists (through bad g).
      split; [apply in_map; by apply elem_of_list_In|by apply elem_of_list_In]. }
    destruct (through_hit bad g p) as (q & Hq & Eb); [done|by intros Hx; apply Hn; right; left; auto|].
    exists q. split_and!; [rewrite !elem_of_app; right; left; auto|done|]. right. exists id.
    split; apply Hid; [|done]. eapply prefix_elem; [apply through_prefix|done].
  - by destruct Hn; right; right.
Qed.

Lemma run_plan P gs tl m : Forall (fun g => exists id, Forall (in_inner id) g) gs -> NoDup (all_of P gs tl) ->
  let d := run bad (plan_of P gs tl) (mkDrops [] m) in
  NoDup (dropped d) /\ (forall p, p ∈ dropped d -> p ∈ all_of P gs tl) /\
  mood_of d = mood_after m (panics bad (dropped d)) /\ dropped d `prefix_of` plan_of P gs tl /\
  (mood_of d <> Aborted -> dropped d = plan_of P gs tl) /\
  (mood_of d <> Aborted -> forall p, p ∈ all_of P gs tl -> p ∉ dropped d ->
    exists q, q ∈ dropped d /\ bad q = true /\ shields q p).
Proof.
  intros Hg Hn d. destruct (run_split bad (plan_of P gs tl) [] m) as (l1 & Hp & E1 & E2 & E3). fold d in E1, E2, E3.
  simpl in E1. rewrite E1, E2. rewrite E2 in E3.
  rewrite all_of_concat in *. pose proof (plan_groups P gs tl) as HF. split_and!; try done.
  - eapply prefix_NoDup; [done|]. rewrite plan_of_concat. by eapply concat_prefix_NoDup.
  - intros p Hx. eapply concat_prefix_elem; [exact HF|]. rewrite <- plan_of_concat. by eapply prefix_elem.
  - by destruct E3.
  - intros Hm p Hx Hd. destruct E3 as [-> |?]; [|done]. rewrite <- all_of_concat in Hx. by apply plan_missing.
Qed.
End Plan.

Section Top.
Context {K V A : Type} {KO : KeyOps K} {PF : Profile} {OM : OrdMode} {OI : OrdIf K} {AO : AugOps K V A}.
Notation tr := (tr K V).
Notation tree := (tree K V A).
Notation seg := (nat * list (K * V))%type.
Notation into_iter := (into_iter K V A).
Context (bad : place -> bool).

Lemma inner_groups (s : store K V A) :
  Forall (fun g => exists id, Forall (in_inner id) g) (map snd (groups inner_places 0 (inners s))).
Proof.
  apply Forall_forall. intros g Hg. apply elem_of_list_In, in_map_iff in Hg as ([id g'] & <- & Hg).
  apply elem_of_list_In, groups_ids in Hg as (n & _ & -> & _). exists id. apply Forall_forall. intros p. apply inner_places_in.
Qed.

Definition held (s : store K V A) (P : list (nat * nat)) (tl : list place) : list place :=
  all_of P (map snd (groups inner_places 0 (inners s))) tl.

Lemma held_NoDup s P tl : NoDup P -> tl = [] \/ tl = [Root] -> NoDup (held s P tl).
Proof.
  intros HP Htl. unfold held, all_of. apply NoDup_app. split_and!; [by apply ents_NoDup| |].
  - intros p (id & i & _ & Hp)%ents_elem [Hq|Hq]%elem_of_app.
    + apply groups_elem in Hq as (j & n & _ & Hq%inner_places_in). by destruct Hp as [-> | ->].
    + destruct Htl as [-> | ->]; [by apply elem_of_nil in Hq|]. apply elem_of_list_singleton in Hq as ->. by destruct Hp.
  - apply NoDup_app. split_and!; [apply inner_all_NoDup| |destruct Htl as [-> | ->]; [constructor|apply NoDup_singleton]].
    intros p Hq Hp. apply groups_elem in Hq as (j & n & _ & Hq%inner_places_in).
    destruct Htl as [-> | ->]; [by apply elem_of_nil in Hp|]. by apply elem_of_list_singleton in Hp as ->.
Qed.

Lemma held_elem segs (it : into_iter) lo hi tl p : instate segs it lo hi ->
  (forall i n, inners (ii_store it) !! i = Some (Some n) -> whole n) ->
  p ∈ held (ii_store it) (sub (poss segs) lo hi) tl <-> holds (ii_store it) p \/ p ∈ tl.
Proof.
  clear bad. intros H Hw. unfold held, all_of. rewrite !elem_of_app. fold (inner_all (ii_store it)). rewrite inner_all_elem by done.
  assert (p ∈ ents (sub (poss segs) lo hi) <-> holds (ii_store it) p /\ in_leaf p) as ->.
  { split.
    - intros Hp. assert (in_leaf p) as Hl by (by apply ents_elem in Hp as (? & ? & _ & [-> | ->])).
      split; [by rewrite (in_holds segs it lo hi p H Hl)|done].
    - intros [Hp Hl]. by rewrite <- (in_holds segs it lo hi p H Hl). }
  assert (in_leaf p \/ ~ in_leaf p) by (destruct p; simpl; tauto). tauto.
Qed.

(** Dropping a consuming iterator. *)
Lemma into_drop_p_spec segs (it : into_iter) lo hi m : instate segs it lo hi ->
  (forall i n, inners (ii_store it) !! i = Some (Some n) -> whole n) ->
  exists d, into_drop_p bad it (mkDrops [] m) = Ok d /\ NoDup (dropped d) /\
    (forall p, p ∈ dropped d -> holds (ii_store it) p) /\
    mood_of d = mood_after m (panics bad (dropped d)) /\
    (mood_of d <> Aborted -> forall p, holds (ii_store it) p -> p ∉ dropped d ->
      exists q, q ∈ dropped d /\ bad q = true /\ shields q p).
Proof.
  intros H Hw. rewrite (into_drop_p_ok bad segs it lo hi _ H Hw).
  set (gs := map snd (groups inner_places 0 (inners (ii_store it)))). set (P := sub (poss segs) lo hi).
  assert (ents (through (ebad bad) P) ++ concat (map (through bad) gs) = plan_of bad P gs []) as ->
    by (unfold plan_of; by rewrite app_nil_r).
  destruct (run_plan bad P gs [] m) as (H1 & H2 & H3 & _ & _ & H4); [apply inner_groups|apply held_NoDup; [by apply sub_NoDup, poss_NoDup, H|by left]|].
  assert (forall p, p ∈ all_of P gs [] <-> holds (ii_store it) p) as Hh.
  { intros p. etransitivity; [exact (held_elem segs it lo hi [] p H Hw)|]. split; [by intros [?|?%elem_of_nil]|by left]. }
  eexists. split; [done|]. split_and!; [done|intros p Hp; by apply Hh, H2|done|intros Hm p Hp; by apply H4, Hh].
Qed.

Section Inv.
Context (rl ri : nat) (SYNC : Prop) (Hrl1 : 1 <= rl).
Notation InvAt := (InvAt rl ri SYNC).

Lemma inv_whole T h t : InvAt T h t -> forall i n, inners (t_store T) !! i = Some (Some n) -> whole n.
Proof. intros HI i n E. eapply droppable_whole, inv_droppable; done. Qed.

Lemma keys_in_order T h t : InvAt T h t -> omap (key_at (t_store T)) (ents (poss (leaf_seq t))) = map fst (flat t).
Proof.
  intros HI. assert (forall s1 s2, leaf_seq t = s1 ++ s2 ->
    omap (key_at (t_store T)) (ents (poss s2)) = map fst (concat (map snd s2))) as H; [|by apply (H [])].
  intros s1 s2. revert s1. induction s2 as [|[id kvs] s2 IH]; intros s1 Es; [done|].
  unfold poss, ents. simpl. fold (poss s2). rewrite map_app, concat_app, omap_app. fold (ents (poss s2)).
  rewrite (IH (s1 ++ [(id, kvs)])) by (by rewrite Es, <- app_assoc). rewrite map_app. f_equal.
  pose proof (inv_leaf rl ri SYNC T h t _ _ _ _ HI Es) as El.
  pose proof (inv_seg_size rl ri SYNC T h t HI) as Hz. rewrite Es in Hz. apply Forall_app in Hz as [_ Hz].
  apply Forall_cons in Hz as [Hz _]. simpl in Hz.
  assert (forall a b, kvs = a ++ b -> omap (key_at (t_store T)) (concat (map ent (map (pair id) (seq (length a) (length b))))) = map fst b) as Hb;
    [|by apply (Hb [])].
  intros a b. revert a. induction b as [|[k v] b IHb]; intros a Ea; [done|]. cbn [length seq map concat ent app fst snd].
  cbn [omap list_omap key_at]. rewrite El. cbn [l_keys mk_leaf].
  rewrite (mk_slots_lookup _ _ _ k).
  2: { unfold keysof. rewrite Ea, map_app, lookup_app_r by (rewrite map_length; lia). by rewrite map_length, Nat.sub_diag. }
  f_equal. specialize (IHb (a ++ [(k, v)])). rewrite app_length in IHb. simpl in IHb. rewrite Nat.add_1_r in IHb.
  apply IHb. by rewrite Ea, <- app_assoc.
Qed.

Lemma omap_none {X Y} (f : X -> option Y) l : (forall x, x ∈ l -> f x = None) -> omap f l = [].
Proof.
  induction l as [|x l IH]; intros H; [done|]. cbn [omap list_omap]. rewrite H by (by left).
  apply IH. intros y Hy. apply H. by right.
Qed.
Lemma omap_prefix {X Y} (f : X -> option Y) l1 l2 : l1 `prefix_of` l2 -> omap f l1 `prefix_of` omap f l2.
Proof. intros [k ->]. exists (omap f k). by rewrite omap_app. Qed.

(** Dropping a tree. *)
Lemma tree_drop_p_spec T h t m : InvAt T h t ->
  exists d, tree_drop_p bad T (mkDrops [] m) = Ok d /\ NoDup (dropped d) /\
    (forall p, p ∈ dropped d -> owns T p) /\
    mood_of d = mood_after m (panics bad (dropped d)) /\
    omap (key_at (t_store T)) (dropped d) `prefix_of` map fst (flat t) /\
    (mood_of d <> Aborted -> (forall q, q ∈ dropped d -> in_leaf q -> bad q = false) ->
      omap (key_at (t_store T)) (dropped d) = map fst (flat t)) /\
    (mood_of d <> Aborted -> forall p, owns T p -> p ∉ dropped d ->
      exists q, q ∈ dropped d /\ bad q = true /\ shields q p).
Proof.
  intros HI. unfold tree_drop_p. destruct (into_new_ok rl ri SYNC Hrl1 T h t HI) as (it & -> & H & Es). rewrite obind_Ok.
  assert (forall i n, inners (ii_store it) !! i = Some (Some n) -> whole n) as Hw by (rewrite Es; by eapply inv_whole).
  rewrite (into_drop_p_ok bad _ it _ _ _ H Hw). rewrite obind_Ok.
  set (gs := map snd (groups inner_places 0 (inners (ii_store it)))). set (P := sub (poss (leaf_seq t)) 0 (length (flat t))).
  change (drop_at bad Root (run bad ?l ?d)) with (run bad [Root] (run bad l d)). rewrite <- run_app, <- app_assoc.
  fold (plan_of bad P gs [Root]).
  destruct (run_plan bad P gs [Root] m) as (H1 & H2 & H3 & Hp & Hpl & H4); [apply inner_groups|apply held_NoDup; [by apply sub_NoDup, poss_NoDup, H|by right]|].
  assert (forall p, p ∈ all_of P gs [Root] <-> owns T p) as Hh.
  { intros p. etransitivity; [exact (held_elem _ it _ _ [Root] p H Hw)|]. unfold owns. rewrite Es, elem_of_list_singleton. tauto. }
  assert (omap (key_at (t_store T)) (plan_of bad P gs [Root]) = omap (key_at (t_store T)) (ents (through (ebad bad) P))) as Eo.
  { unfold plan_of. rewrite omap_app, (omap_none _ (concat _ ++ _)), app_nil_r; [done|].
    intros p [Hq|Hq]%elem_of_app; [|by apply elem_of_list_singleton in Hq as ->].
    assert (p ∈ concat gs) as Hq'.
    { eapply concat_prefix_elem; [|exact Hq]. clear. induction gs as [|g gs' IH]; simpl; constructor; [apply through_prefix|done]. }
    apply groups_elem in Hq' as (j & n & _ & Hq'%inner_places_in). by destruct p. }
  assert (P = poss (leaf_seq t)) as EP.
  { unfold P. replace (length (flat t)) with (length (poss (leaf_seq t))); [apply sub_all|]. by rewrite poss_length. }
  eexists. split; [done|]. split_and!; [done|intros p Hx; by apply Hh, H2|done| | |intros Hm p Hx; by apply H4, Hh].
  - etransitivity; [apply omap_prefix, Hp|]. rewrite Eo, <- (keys_in_order T h t HI), <- EP.
    apply omap_prefix, ents_prefix, through_prefix.
  - intros Hm Hq. rewrite (Hpl Hm) in Hq |- *. rewrite Eo, <- (keys_in_order T h t HI), <- EP, through_all; [done|].
    destruct (existsb (ebad bad) P) eqn:E; [|done]. exfalso. apply existsb_hit in E as (e & He & Ee).
    assert (exists y, y ∈ through (ebad bad) P /\ ebad bad y = true) as (y & Hy & Ey).
    { destruct (decide (e ∈ through (ebad bad) P)) as [D|D]; [by exists e|]. by apply through_hit in D. }
    apply existsb_hit in Ey as (q & Hqy & Eq). unfold ent in Hqy.
    assert (q ∈ ents (through (ebad bad) P)) as Hqe.
    { apply ents_elem. exists y.1, y.2. rewrite <- surjective_pairing. split; [done|].
      apply elem_of_cons in Hqy as [->|Hqy]; [by left|]. apply elem_of_list_singleton in Hqy as ->. by right. }
    rewrite (Hq q) in Eq; [done| |].
    + apply elem_of_app. by left.
    + by apply ents_elem in Hqe as (? & ? & _ & [-> | ->]).
Qed.

(** ** Clone *)
Lemma clone_loop_ok cbad {X} (mk : nat -> place) (s : slots X) i n made : (forall j, i <= j < i + n -> full_at s j) ->
  clone_loop cbad mk s i n made = Ok (made ++ upto cbad (map mk (seq i n)), existsb cbad (map mk (seq i n))).
Proof.
  revert i made. induction n as [|n IH]; intros i made H; [by rewrite app_nil_r|]. cbn [clone_loop seq map upto existsb].
  destruct (slot_get_full s i) as [x ->]; [apply H; lia|]. rewrite obind_Ok.
  destruct (cbad (mk i)); [by rewrite app_nil_r|]. rewrite IH by (intros; apply H; lia). by rewrite <- app_assoc.
Qed.

Lemma inner_clone_p_ok cbad id (n : inner K A) made : whole n ->
  inner_clone_p cbad id n made = Ok (made ++ upto cbad (inner_places id n), existsb cbad (inner_places id n)).
Proof.
  intros [H1 H2]. unfold inner_clone_p, inner_places. rewrite clone_loop_ok by (intros; apply H1; lia).
  rewrite obind_Ok, upto_app, existsb_app. destruct (existsb cbad (map (IKey id) _)) eqn:E; [done|].
  rewrite clone_loop_ok by (intros; apply H2; lia). by rewrite (upto_all cbad (map (IKey id) _)), <- app_assoc by done.
Qed.
Lemma leaf_clone_p_ok cbad id (n : leaf K V) made : lwhole n ->
  leaf_clone_p cbad id n made = Ok (made ++ upto cbad (leaf_places id n), existsb cbad (leaf_places id n)).
Proof.
  intros [H1 H2]. unfold leaf_clone_p, leaf_places. rewrite clone_loop_ok by (intros; apply H1; lia).
  rewrite obind_Ok, upto_app, existsb_app. destruct (existsb cbad (map (LKey id) _)) eqn:E; [done|].
  rewrite clone_loop_ok by (intros; apply H2; lia). by rewrite (upto_all cbad (map (LKey id) _)), <- app_assoc by done.
Qed.

Lemma clone_opts_p_ok cbad {X} (f : nat -> X -> list place -> outcome (list place * bool)) (pl : nat -> X -> list place) k l made :
  (forall i x made, l !! i = Some (Some x) -> f (k + i) x made = Ok (made ++ upto cbad (pl (k + i) x), existsb cbad (pl (k + i) x))) ->
  exists made' out, clone_opts_p f k l made = Ok (made ++ made', out) /\
    match out with
    | None => made' = concat (map snd (groups pl k l)) /\ existsb cbad made' = false
    | Some id => exists g1 g g2, groups pl k l = g1 ++ (id, g) :: g2 /\ made' = concat (map snd g1) ++ upto cbad g /\
        existsb cbad (concat (map snd g1)) = false /\ existsb cbad g = true
    end.
Proof.
  revert k made. induction l as [|o l IH]; intros k made H; cbn [clone_opts_p groups].
  { exists [], None. by rewrite app_nil_r. }
  assert (forall i x made, l !! i = Some (Some x) -> f (S k + i) x made = Ok (made ++ upto cbad (pl (S k + i) x), existsb cbad (pl (S k + i) x))) as H'.
  { intros i x m Hx. specialize (H (S i) x m Hx). by rewrite <- plus_n_Sm in H. }
  destruct o as [x|]; [|by apply IH].
  specialize (H 0 x made eq_refl). rewrite Nat.add_0_r in H. rewrite H, obind_Ok.
  destruct (existsb cbad (pl k x)) eqn:E.
  - eexists _, (Some k). split; [done|]. eexists [], _, _. split_and!; done.
  - rewrite upto_all by done. destruct (IH (S k) (made ++ pl k x) H') as (made' & out & -> & Ho).
    exists (pl k x ++ made'), out. rewrite <- app_assoc. split; [done|]. destruct out as [id|].
    + destruct Ho as (g1 & g & g2 & -> & -> & E1 & E2). exists ((k, pl k x) :: g1), g, g2. split_and!; try done.
      * simpl. by rewrite <- app_assoc.
      * simpl. by rewrite existsb_app, E, E1.
    + destruct Ho as [-> Ho]. split; [done|]. by rewrite existsb_app, E, Ho.
Qed.

Lemma inv_lwhole T h t : InvAt T h t -> forall i n, leaves (t_store T) !! i = Some (Some n) -> lwhole n.
Proof.
  intros HI i l El. destruct (inv_leaf_live rl ri SYNC _ _ _ _ _ HI El) as (kvs & s1 & s2 & Es & ->). apply leaf_whole.
  pose proof (inv_seg_size rl ri SYNC T h t HI) as Hz. rewrite Es in Hz. apply Forall_app in Hz as [_ Hz].
  apply Forall_cons in Hz as [Hz _]. done.
Qed.

Lemma group_prefix_NoDup {X} (gs g1 : list (X * list place)) id g g2 (u : list place) :
  gs = g1 ++ (id, g) :: g2 -> u `prefix_of` g -> NoDup (concat (map snd gs)) ->
  NoDup (concat (map snd g1) ++ u) /\ forall p, p ∈ concat (map snd g1) ++ u -> p ∈ concat (map snd gs).
Proof.
  clear bad. intros -> [k ->] H. rewrite map_app, concat_app in *. simpl in *. rewrite <- app_assoc, app_assoc in H.
  split; [by apply NoDup_app in H as [H _]|]. intros p. rewrite !elem_of_app. tauto.
Qed.

(** What a clone interrupted by a panic has given back: [id] is the inner node being cloned. *)
Lemma tree_clone_p_spec cbad dbad T h t : InvAt T h t ->
  exists made r, tree_clone_p cbad dbad T = Ok (made, r) /\ NoDup made /\
    (forall p, p ∈ made -> owns T p /\ cbad p = false) /\
    match r with
    | None => forall p, owns T p -> p ∈ made
    | Some d => exists q, owns T q /\ cbad q = true /\
        NoDup (dropped d) /\ (forall p, p ∈ dropped d -> p ∈ made /\ ~ in_leaf p) /\
        mood_of d = mood_after Unwinding (panics dbad (dropped d)) /\
        (mood_of d <> Aborted -> forall p, p ∈ made -> p ∉ dropped d ->
          shields q p \/ exists q, q ∈ dropped d /\ dbad q = true /\ shields q p)
    end.
Proof.
  clear bad. intros HI. unfold tree_clone_p. destruct (cbad Root) eqn:ER.
  { eexists _, _. split; [done|]. split_and!; [constructor|by intros p ?%elem_of_nil|].
    exists Root. split_and!; [by left|done|constructor|by intros p ?%elem_of_nil|done|by intros _ p ?%elem_of_nil]. }
  pose proof (inv_whole T h t HI) as Hw. pose proof (inv_lwhole T h t HI) as Hlw.
  set (s := t_store T) in *.
  destruct (clone_opts_p_ok cbad (inner_clone_p cbad) inner_places 0 (inners s) [Root]) as (m1 & o1 & -> & H1).
  { intros i n made E. apply inner_clone_p_ok. by eapply Hw. }
  rewrite obind_Ok. pose proof (inner_all_NoDup s) as Hnd. pose proof (inner_all_elem s) as Hie.
  assert (forall p, p ∈ inner_all s -> owns T p /\ ~ in_leaf p /\ p <> Root) as Hio.
  { intros p Hp. apply Hie in Hp as [Hp Hl]; [|done]. split_and!; [by right|done|by intros ->]. }
  assert (Root ∉ inner_all s) as HnR by (intros Hr; by apply Hio in Hr as (_ & _ & ?)).
  destruct o1 as [id|].
  - destruct H1 as (g1 & g & g2 & Eg & Em & Ec1 & Ec2).
    destruct (groups_take _ _ _ _ _ _ _ Eg) as [Et _]. rewrite Nat.sub_0_r in Et.
    rewrite drop_inners_p_ok.
    2: { intros i n E. apply lookup_take_Some in E as [E _]. by eapply Hw. }
    rewrite Et, obind_Ok.
    destruct (group_prefix_NoDup _ _ _ _ _ (upto cbad g) Eg (upto_prefix cbad g) Hnd) as [Hnd1 Hsub]. rewrite <- Em in Hnd1, Hsub.
    destruct (group_prefix_NoDup _ _ _ _ _ [] Eg (prefix_nil _) Hnd) as [Hnd2 Hsub2]. rewrite app_nil_r in Hnd2, Hsub2.
    change (drop_at dbad Root (run dbad ?l ?d)) with (run dbad [Root] (run dbad l d)). rewrite <- run_app.
    set (gs := map snd g1) in *.
    change (concat (map (through dbad) gs) ++ [Root]) with (plan_of dbad [] gs [Root]).
    destruct (run_plan dbad [] gs [Root] Unwinding) as (K1 & K2 & K3 & _ & _ & K4).
    { pose proof (inner_groups s) as F. rewrite Eg, map_app in F. by apply Forall_app in F as [F _]. }
    { unfold all_of. simpl. apply NoDup_app. split_and!; [done| |apply NoDup_singleton].
      intros p Hp Hr. apply elem_of_list_singleton in Hr as ->. by apply HnR, Hsub2. }
    eexists _, _. split; [done|]. split_and!.
    + apply NoDup_cons. split; [intros Hr; by apply HnR, Hsub|done].
    + intros p [-> |Hp]%elem_of_cons; [split; [by left|done]|]. split; [by apply Hio, Hsub|].
      rewrite Em in Hp. apply elem_of_app in Hp as [Hp|Hp]; [by eapply existsb_clean|by eapply upto_clean].
    + apply existsb_hit in Ec2 as (q & Hq & Eq). exists q.
      assert (in_inner id q) as Hqi.
      { assert ((id, g) ∈ groups inner_places 0 (inners s)) as He by (rewrite Eg; apply elem_of_app; right; left).
        apply groups_ids in He as (n & _ & -> & _). by eapply inner_places_in. }
      split_and!; [|done|done| |done|].
      * apply Hio. unfold inner_all. rewrite Eg, map_app, concat_app. simpl. rewrite !elem_of_app. tauto.
      * intros p Hp. apply K2 in Hp. unfold all_of in Hp. simpl in Hp. apply elem_of_app in Hp as [Hp|Hp].
        -- split; [apply elem_of_cons; right; rewrite Em; apply elem_of_app; by left|]. by apply Hio, Hsub2.
        -- apply elem_of_list_singleton in Hp as ->. split; [by left|by intros []].
      * intros Hm p Hp Hn. destruct (decide (p ∈ upto cbad g)) as [Hu|Hu].
        -- left. right. exists id. split; [done|].
           assert ((id, g) ∈ groups inner_places 0 (inners s)) as He by (rewrite Eg; apply elem_of_app; right; left).
           apply groups_ids in He as (n & _ & -> & _). eapply inner_places_in, prefix_elem; [apply upto_prefix|done].
        -- right. apply K4; [done| |done]. unfold all_of. simpl. apply elem_of_app.
           apply elem_of_cons in Hp as [-> |Hp]; [right; by left|]. rewrite Em in Hp. apply elem_of_app in Hp as [Hp|Hp]; [by left|done].
  - destruct H1 as [-> Ec1]. fold (inner_all s) in Ec1 |- *.
    destruct (clone_opts_p_ok cbad (leaf_clone_p cbad) leaf_places 0 (leaves s) ([Root] ++ inner_all s)) as (m2 & o2 & -> & H2).
    { intros i n made E. apply leaf_clone_p_ok. by eapply Hlw. }
    rewrite obind_Ok. pose proof (leaf_all_NoDup s) as Lnd. pose proof (leaf_all_elem s) as Lie.
    assert (NoDup ([Root] ++ inner_all s)) as Hnd1 by (apply NoDup_cons; done).
    assert (forall p, p ∈ [Root] ++ inner_all s -> owns T p /\ cbad p = false /\ ~ in_leaf p) as Hc1.
    { intros p [-> |Hp]%elem_of_cons; [split_and!; [by left|done|by intros []]|].
      split_and!; [by apply Hio|by eapply existsb_clean|by apply Hio]. }
    assert (forall p, p ∈ leaf_all s -> owns T p /\ in_leaf p) as Lio.
    { intros p Hp. apply Lie in Hp as [Hp Hl]; [|done]. split; [by right|done]. }
    destruct o2 as [id|].
    + destruct H2 as (g1 & g & g2 & Eg & Em & Ec2 & Ec3).
      rewrite drop_inners_p_ok by done. rewrite obind_Ok.
      destruct (group_prefix_NoDup _ _ _ _ _ (upto cbad g) Eg (upto_prefix cbad g) Lnd) as [Lnd1 Lsub]. rewrite <- Em in Lnd1, Lsub.
      change (drop_at dbad Root (run dbad ?l ?d)) with (run dbad [Root] (run dbad l d)). rewrite <- run_app.
      set (gs := map snd (groups inner_places 0 (inners s))) in *.
      change (concat (map (through dbad) gs) ++ [Root]) with (plan_of dbad [] gs [Root]).
      destruct (run_plan dbad [] gs [Root] Unwinding) as (K1 & K2 & K3 & _ & _ & K4).
      { apply inner_groups. }
      { unfold all_of. simpl. apply NoDup_app. split_and!; [done| |apply NoDup_singleton].
        intros p Hp Hr. by apply elem_of_list_singleton in Hr as ->. }
      eexists _, _. split; [done|]. split_and!.
      * apply NoDup_app. split_and!; [done| |done]. intros p Hp Hq. apply Hc1 in Hp as (_ & _ & Hp). apply Hp. by apply Lio, Lsub.
      * intros p [Hp|Hp]%elem_of_app; [by apply Hc1 in Hp as (? & ? & _)|]. split; [by apply Lio, Lsub|].
        rewrite Em in Hp. apply elem_of_app in Hp as [Hp|Hp]; [by eapply existsb_clean|by eapply upto_clean].
      * apply existsb_hit in Ec3 as (q & Hq & Eq). exists q.
        assert (q ∈ leaf_all s) as Hql.
        { unfold leaf_all. rewrite Eg, map_app, concat_app. simpl. rewrite !elem_of_app. tauto. }
        split_and!; [by apply Lio|done|done| |done|].
        -- intros p Hp. apply K2 in Hp. unfold all_of in Hp. simpl in Hp.
           assert (p ∈ [Root] ++ inner_all s) as Hp'.
           { apply elem_of_app in Hp as [Hp|Hp]; apply elem_of_app; [by right|by left]. }
           split; [apply elem_of_app; by left|by apply Hc1].
        -- intros Hm p Hp Hn. apply elem_of_app in Hp as [Hp|Hp].
           ++ right. apply K4; [done| |done]. unfold all_of. simpl. apply elem_of_app. apply elem_of_app in Hp as [Hp|Hp]; [by right|by left].
           ++ left. left. split; [by apply Lio|]. by apply Lio, Lsub.
    + destruct H2 as [-> Ec2]. fold (leaf_all s) in Ec2 |- *. eexists _, _. split; [done|]. split_and!.
      * apply NoDup_app. split_and!; [done| |done]. intros p Hp Hq. apply Hc1 in Hp as (_ & _ & Hp). apply Hp. by apply Lio.
      * intros p [Hp|Hp]%elem_of_app; [by apply Hc1 in Hp as (? & ? & _)|]. split; [by apply Lio|by eapply existsb_clean].
      * intros p [-> |Hp]; [by left|]. rewrite !elem_of_app, elem_of_list_singleton, Lie, Hie by done.
        assert (in_leaf p \/ ~ in_leaf p) by (destruct p; simpl; tauto). tauto.
Qed.
End Inv.
End Top.
