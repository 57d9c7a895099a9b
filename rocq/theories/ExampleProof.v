(** The programs in /repo/examples. *)
From stdpp Require Import list sorting.
From Coq Require Import ZArith.
From Verif Require Import Base Slots BinSearch LeafNode InnerNode Store Tree Remove Iterators Augment BulkLoad History View
  SlotLemmas NodeLemmas Spec AugSpec SearchSpec Order Logical Descent InsertProof InvLemmas InsertTop
  RemoveLeaf RemoveInner RemoveProof RemoveTop Lookup RefProof AugProof ViewProof IterProof IntoProof HistProof HistTop AugTop
  QueryProof ExamplePrograms ExampleSpec.

(** ** Searching by running weight *)
Section Weighted.
Context {X : Type} (w : X -> nat).
Definition weight (l : list X) : nat := list_sum (map w l).
Fixpoint at_weight (l : list X) (q : nat) : option nat :=
  match l with
  | [] => None
  | x :: l' => if decide (q < w x) then Some 0 else S <$> at_weight l' (q - w x)
  end.
Fixpoint pick_inner (q : nat) (ws : list nat) : option (nat * nat) :=
  match ws with
  | [] => None
  | a :: ws' => if decide (q < a) then Some (0, q) else '(i, q') ← pick_inner (q - a) ws'; Some (S i, q')
  end.

Lemma weight_app l1 l2 : weight (l1 ++ l2) = weight l1 + weight l2.
Proof. unfold weight. by rewrite map_app, list_sum_app. Qed.
Lemma weight_concat ls : weight (concat ls) = list_sum (map weight ls).
Proof. induction ls as [|l ls IH]; [done|]. cbn [concat map]. rewrite weight_app, IH. done. Qed.
Lemma at_weight_lt l q i : at_weight l q = Some i -> i < length l.
Proof.
  revert q i. induction l as [|x l IH]; intros q i H; [done|]. simpl in *. destruct (decide _).
  - injection H as <-. lia.
  - destruct (at_weight l _) as [j|] eqn:E; [|done]. injection H as <-. apply IH in E. lia.
Qed.
Lemma at_weight_app l1 l2 q : at_weight (l1 ++ l2) q =
  if decide (q < weight l1) then at_weight l1 q else Nat.add (length l1) <$> at_weight l2 (q - weight l1).
Proof.
  revert q. induction l1 as [|x l1 IH]; intros q; cbn [app at_weight].
  - change (weight []) with 0. rewrite decide_False by lia. rewrite Nat.sub_0_r. by destruct (at_weight l2 q).
  - change (weight (x :: l1)) with (w x + weight l1). destruct (decide (q < w x)).
    + rewrite decide_True by lia. done.
    + rewrite IH. destruct (decide (q - w x < weight l1)).
      * rewrite decide_True by lia. done.
      * rewrite decide_False by lia. rewrite Nat.sub_add_distr. by destruct (at_weight l2 _).
Qed.
Lemma at_weight_none l q : weight l <= q -> at_weight l q = None.
Proof.
  revert q. induction l as [|x l IH]; intros q H; [done|]. change (weight (x :: l)) with (w x + weight l) in H.
  simpl. rewrite decide_False by lia. rewrite IH by lia. done.
Qed.
Lemma at_weight_some l q : q < weight l -> is_Some (at_weight l q).
Proof.
  revert q. induction l as [|x l IH]; intros q H; [unfold weight in H; simpl in H; lia|].
  change (weight (x :: l)) with (w x + weight l) in H. simpl. destruct (decide _); [done|].
  destruct (IH (q - w x)) as [j ->]; [lia|]. done.
Qed.
Lemma pick_inner_ok ls q :
  match pick_inner q (map weight ls) with
  | None => at_weight (concat ls) q = None
  | Some (i, q') => exists l, ls !! i = Some l /\
      at_weight (concat ls) q = Nat.add (length (concat (take i ls))) <$> at_weight l q'
  end.
Proof.
  revert q. induction ls as [|l ls IH]; intros q; [done|]. cbn [map pick_inner concat]. rewrite at_weight_app.
  destruct (decide (q < weight l)).
  - exists l. split; [done|]. cbn [take concat length]. by destruct (at_weight l q).
  - specialize (IH (q - weight l)). destruct (pick_inner _ _) as [[i q']|]; simpl.
    + destruct IH as (l' & Hi & ->). exists l'. split; [done|]. rewrite app_length.
      destruct (at_weight l' q'); [|done]. simpl. f_equal. lia.
    + by rewrite IH.
Qed.
(** the entry found is the one holding position [q] of the expansion *)
Lemma at_weight_bag {Y} (f : X -> Y) l q : (j ← at_weight l q; f <$> l !! j) =
  concat (map (fun x => replicate (w x) (f x)) l) !! q.
Proof.
  revert q. induction l as [|x l IH]; intros q; [done|]. cbn [at_weight map concat]. destruct (decide (q < w x)).
  - rewrite lookup_app_l by (by rewrite replicate_length). simpl. by rewrite lookup_replicate_2.
  - rewrite lookup_app_r by (rewrite replicate_length; lia). rewrite replicate_length, <- IH.
    by destruct (at_weight l (q - w x)).
Qed.
End Weighted.

(** A search by running weight, with the weight of a run as its summary. *)
Section WeightedRules.
Context {K V : Type} {KO : KeyOps K} {PF : Profile} {OL : OrdLaws K} {AO : AugOps K V nat} {SO : SearchOps K V nat nat} (w : K * V -> nat).
Definition weighs (a : nat) (l : list (K * V)) : Prop := a = weight w l.
Lemma weighs_map aus ls : Forall2 weighs aus ls -> aus = map (weight w) ls.
Proof. induction 1 as [|a l aus ls Ha _ IH]; [done|]. simpl. by rewrite Ha, IH. Qed.
Lemma weighted_rules :
  (forall l q, locate_in_leaf (A:=nat) q (map fst l) (map snd l) = at_weight w l q) ->
  (forall q ks aus, locate_in_inner (V:=V) q ks aus = pick_inner q aus) ->
  search_rules weighs (at_weight w).
Proof.
  intros H1 H2. split.
  - apply at_weight_lt.
  - intros l q _ _. apply H1.
  - intros ks aus ls q Hn. rewrite H2, (weighs_map _ _ (ns_summaries _ _ _ _ Hn)). apply pick_inner_ok.
Qed.
Lemma weighted_summary :
  (forall l, from_leaf (map fst l) (map snd l) = weight w l) ->
  (forall ks aus, from_inner (V:=V) ks aus = list_sum aus) -> aug_default (K:=K) (V:=V) = 0 ->
  summary_ok weighs.
Proof.
  intros H1 H2 H3. split.
  - intros kvs _ _. apply H1.
  - intros ks aus ls _ _ _ H. rewrite H2, (weighs_map _ _ H). symmetry. apply weight_concat.
  - exact H3.
Qed.
End WeightedRules.

(** ** augment_even_count.rs *)
Section Even.
Context {V : Type} {PF : Profile}.
Context {KO : KeyOps Z} {OL : OrdLaws Z}.
Local Existing Instance even_aug.
Local Existing Instance even_search.
Definition even_weight (kv : Z * V) : nat := if Z.even (fst kv) then 1 else 0.

Lemma value_is_even_ok k : value_is_even k = Z.even k.
Proof.
  unfold value_is_even. destruct (Z.eqb_spec (Z.rem k 2) 0) as [E|E]; symmetry.
  - apply Z.even_spec. apply Z.rem_divide in E as [x ->]; [|lia]. exists x. lia.
  - apply not_true_iff_false. intros H. apply Z.even_spec in H as [x ->]. apply E. apply Z.rem_divide; [lia|]. exists x. lia.
Qed.
Lemma even_pick i q aus : even_locate_inner i q aus = '(j, q') ← pick_inner q aus; Some (i + j, q').
Proof.
  revert i q. induction aus as [|a aus IH]; intros i q; [done|]. cbn [even_locate_inner pick_inner]. destruct (decide _).
  - simpl. by rewrite Nat.add_0_r.
  - rewrite IH. destruct (pick_inner _ _) as [[j q']|]; [|done]. simpl. do 2 f_equal. lia.
Qed.
Lemma even_weight_1 k (v : V) : Z.even k = true -> even_weight (k, v) = 1.
Proof. unfold even_weight. cbn [fst]. by intros ->. Qed.
Lemma even_weight_0 k (v : V) : Z.even k = false -> even_weight (k, v) = 0.
Proof. unfold even_weight. cbn [fst]. by intros ->. Qed.
Lemma even_leaf_ok i (l : list (Z * V)) q : even_locate_leaf i q (map fst l) = Nat.add i <$> at_weight even_weight l q.
Proof.
  revert i q. induction l as [|[k v] l IH]; intros i q; [done|]. cbn [map fst even_locate_leaf at_weight].
  rewrite value_is_even_ok. destruct (Z.even k) eqn:E.
  - pose proof (even_weight_1 k v E) as W. destruct q as [|q].
    + rewrite decide_True by lia. simpl. by rewrite Nat.add_0_r.
    + rewrite decide_False by lia. rewrite IH. replace (S q - even_weight (k, v)) with q by lia.
      destruct (at_weight _ _ _); [|done]. simpl. f_equal. lia.
  - pose proof (even_weight_0 k v E) as W. rewrite decide_False by lia. rewrite IH.
    replace (q - even_weight (k, v)) with q by lia. destruct (at_weight _ _ _); [|done]. simpl. f_equal. lia.
Qed.
Lemma even_weight_ok (l : list (Z * V)) : weight even_weight l = length (evens l).
Proof.
  induction l as [|[k v] l IH]; [done|]. change (weight even_weight ((k, v) :: l)) with (even_weight (k, v) + weight even_weight l).
  rewrite IH. unfold evens, even_weight. cbn [List.filter fst]. by destruct (Z.even k).
Qed.
Lemma even_get_ok (l : list (Z * V)) q : (j ← at_weight even_weight l q; l !! j) = evens l !! q.
Proof.
  revert q. induction l as [|[k v] l IH]; intros q; [done|]. unfold evens. cbn [List.filter at_weight fst].
  fold (evens l). destruct (Z.even k) eqn:E.
  - pose proof (even_weight_1 k v E) as W. destruct q as [|q].
    + rewrite decide_True by lia. done.
    + rewrite decide_False by lia. replace (S q - even_weight (k, v)) with q by lia.
      etrans; [|exact (IH q)]. by destruct (at_weight _ _ _).
  - pose proof (even_weight_0 k v E) as W. rewrite decide_False by lia.
    replace (q - even_weight (k, v)) with q by lia. etrans; [|exact (IH q)]. by destruct (at_weight _ _ _).
Qed.
Lemma even_rules : search_rules (V:=V) (weighs even_weight) (at_weight even_weight).
Proof.
  apply weighted_rules.
  - intros l q. cbn [locate_in_leaf even_search]. rewrite even_leaf_ok. by destruct (at_weight _ _ _).
  - intros q ks aus. cbn [locate_in_inner even_search]. rewrite even_pick. by destruct (pick_inner _ _) as [[? ?]|].
Qed.
Lemma even_summary : summary_ok (V:=V) (weighs even_weight).
Proof.
  apply weighted_summary; [|done|done]. intros l. cbn [from_leaf even_aug]. rewrite even_weight_ok. unfold evens.
  induction l as [|[k v] l IH]; [done|]. cbn [map List.filter fst]. rewrite value_is_even_ok. destruct (Z.even k); simpl; by rewrite ?IH.
Qed.
Lemma even_key_aug : key_aug (K:=Z) (V:=V) (A:=nat).
Proof. done. Qed.

Lemma even_top b T (l : list (Z * V)) : reachable (A:=nat) b T l ->
  t_aug T = length (evens l) /\
  forall i, get_by_augmentation T i = Ok (evens l !! i).
Proof.
  intros (ops & rs & Hl & E & <-). split.
  - destruct (exec_inv_any True b ops rs T Hl E) as (ri & h & t & Hlow & Hri & HI & Hf & _); [done|].
    rewrite <- Hf, <- even_weight_ok. assert (1 <= low b) as Hb by lia. exact (root_summary _ ri Hb _ even_summary T h t HI).
  - intros i. destruct (search_rules_top _ even_summary _ even_rules b ops rs T i Hl E) as [-> _]; [done|]. by rewrite even_get_ok.
Qed.
End Even.

(** ** duplicate_key.rs *)
Section Dup.
Context {K : Type} {KO : KeyOps K} {PF : Profile} {OL : OrdLaws K}.
Local Existing Instance dup_aug.
Local Existing Instance dup_search.
Notation run := (list (K * nat)).

Definition bag (l : run) : list K := concat (map (fun x => replicate (snd x) (fst x)) l).
Definition held (k : K) (l : run) : nat := default 0 (spec_get (probe_key k) l).

Lemma copies_app k (a b : list K) : copies k (a ++ b) = copies k a + copies k b.
Proof. induction a as [|x a IH]; [done|]. simpl. lia. Qed.
Lemma copies_replicate k c x : copies k (replicate c x) = match kcmp x k with Eq => c | _ => 0 end.
Proof. induction c as [|c IH]; simpl; [by destruct (kcmp x k)|]. rewrite IH. by destruct (kcmp x k). Qed.
Lemma copies_none k (l : run) : Forall (fun y => kcmp (fst y) k <> Eq) l -> copies k (bag l) = 0.
Proof.
  induction 1 as [|[x c] l Hx _ IH]; [done|]. unfold bag in *. cbn [map concat fst snd] in *. rewrite copies_app, copies_replicate, IH.
  by destruct (kcmp x k).
Qed.
Lemma copies_bag k (l : run) : ascending l -> copies k (bag l) = held k l.
Proof.
  unfold held. induction l as [|[x c] l IH]; intros Ha; [done|]. inversion Ha as [|? ? Ha' Hx]; subst.
  unfold bag. cbn [map concat fst snd spec_get]. fold (bag l). rewrite copies_app, copies_replicate. unfold probe_key at 1.
  destruct (kcmp x k) eqn:E; cbn [default]; [|by apply IH|by apply IH].
  rewrite copies_none; [simpl; lia|]. eapply Forall_impl; [exact Hx|]. intros [y d] Hy. cbn [fst] in *.
  rewrite ord_sym. intros H. rewrite (ord_eq x k y E) in Hy. by rewrite Hy in H.
Qed.
Lemma bag_sorted (l : run) : ascending l -> StronglySorted (fun x y => kcmp x y <> Gt) (bag l).
Proof.
  induction l as [|[x c] l IH]; intros Ha; [constructor|]. inversion Ha as [|? ? Ha' Hx]; subst.
  unfold bag. cbn [map concat fst snd]. fold (bag l).
  assert (Forall (fun y => kcmp x y <> Gt) (bag l)) as Hb.
  { apply Forall_forall. intros y Hy. unfold bag in Hy. apply elem_of_list_In, in_concat in Hy as (m & Hm & Hy).
    apply in_map_iff in Hm as ([z d] & <- & Hz). apply elem_of_list_In, elem_of_replicate in Hy as [-> _].
    rewrite Forall_forall in Hx. apply elem_of_list_In in Hz. pose proof (Hx _ Hz) as H. cbn [fst] in *. by rewrite H. }
  specialize (IH Ha'). clear Ha Hx. induction c as [|c IHc]; [done|]. simpl. constructor; [done|].
  apply Forall_app. split; [|done]. apply Forall_replicate. by rewrite ord_refl.
Qed.
Lemma bag_length (l : run) : length (bag l) = weight snd l.
Proof.
  unfold bag, weight. induction l as [|[x c] l IH]; [done|]. simpl. by rewrite app_length, replicate_length, IH.
Qed.

Lemma get_insert k v k' (l : run) : ascending l ->
  spec_get (probe_key k') (spec_insert k v l) = match kcmp k k' with Eq => Some v | _ => spec_get (probe_key k') l end.
Proof.
  induction l as [|[x c] l IH]; intros Ha; cbn [spec_insert spec_get]; [by unfold probe_key; destruct (kcmp k k')|].
  inversion Ha as [|? ? Ha' Hx]; subst. destruct (kcmp x k) eqn:E; cbn [spec_get]; unfold probe_key in *.
  - rewrite (ord_eq x k k' E). by destruct (kcmp k k').
  - rewrite IH by done. destruct (kcmp x k') eqn:E1; [|done|done].
    assert (kcmp k k' <> Eq) as Hn; [|by destruct (kcmp k k')].
    intros H. rewrite (ord_sym k x) in E. rewrite (ord_eq k k' x H), ord_sym in E. by rewrite E1 in E.
  - by destruct (kcmp k k').
Qed.
Lemma get_remove k k' (l : run) : ascending l ->
  spec_get (probe_key k') (spec_remove (probe_key k) l) = match kcmp k k' with Eq => None | _ => spec_get (probe_key k') l end.
Proof.
  induction l as [|[x c] l IH]; intros Ha; cbn [spec_remove spec_get]; [by destruct (kcmp k k')|].
  inversion Ha as [|? ? Ha' Hx]; subst. unfold probe_key at 2. destruct (kcmp x k) eqn:E; cbn [spec_get]; unfold probe_key in *.
  - rewrite (ord_eq x k k' E). destruct (kcmp k k') eqn:E1; [|done|done].
    assert (kcmp x k' = Eq) as E2 by (by rewrite (ord_eq x k k' E)). clear -Hx E2 OL.
    induction Hx as [|[y d] l Hy _ IH]; [done|]. cbn [spec_get fst] in *. rewrite (ord_sym k' y), <- (ord_eq x k' y E2), Hy. exact IH.
  - rewrite IH by done. destruct (kcmp x k') eqn:E1; [|done|done].
    assert (kcmp k k' <> Eq) as Hn; [|by destruct (kcmp k k')].
    intros H. rewrite (ord_sym k x) in E. rewrite (ord_eq k k' x H), ord_sym in E. by rewrite E1 in E.
  - rewrite IH by done. destruct (kcmp x k') eqn:E1; [|done|done].
    assert (kcmp k k' <> Eq) as Hn; [|by destruct (kcmp k k')].
    intros H. rewrite (ord_sym k x) in E. rewrite (ord_eq k k' x H), ord_sym in E. by rewrite E1 in E.
Qed.

Lemma dup_leaf_ok i acc q (l : run) : acc <= q -> dup_locate_leaf i acc q (map snd l) = Nat.add i <$> at_weight snd l (q - acc).
Proof.
  revert i acc. induction l as [|[k c] l IH]; intros i acc Hq; [done|]. cbn [map snd dup_locate_leaf at_weight].
  destruct (decide (q < acc + c)).
  - rewrite decide_True by lia. simpl. by rewrite Nat.add_0_r.
  - rewrite decide_False by lia. rewrite IH by lia. rewrite Nat.sub_add_distr. destruct (at_weight _ _ _); [|done].
    simpl. f_equal. lia.
Qed.
Lemma dup_pick i q aus : dup_locate_inner i q aus = '(j, q') ← pick_inner q aus; Some (i + j, q').
Proof.
  revert i q. induction aus as [|a aus IH]; intros i q; [done|]. cbn [dup_locate_inner pick_inner]. destruct (decide (a <= q)).
  - rewrite decide_False by lia. rewrite IH. destruct (pick_inner _ _) as [[j q']|]; [|done]. simpl. do 2 f_equal. lia.
  - rewrite decide_True by lia. simpl. by rewrite Nat.add_0_r.
Qed.
Lemma dup_rules : search_rules (K:=K) (weighs snd) (at_weight snd).
Proof.
  apply weighted_rules.
  - intros l q. cbn [locate_in_leaf dup_search]. rewrite take_ge by (by rewrite !map_length). rewrite dup_leaf_ok by lia.
    rewrite Nat.sub_0_r. by destruct (at_weight _ _ _).
  - intros q ks aus. cbn [locate_in_inner dup_search]. rewrite dup_pick. by destruct (pick_inner _ _) as [[? ?]|].
Qed.
Lemma dup_summary : summary_ok (K:=K) (weighs snd).
Proof. by apply weighted_summary. Qed.

(** a history without writes through references *)
Definition dup_state (T : tree K nat nat) (l : run) (n : nat) : Prop :=
  exists ops rs, proper (A:=nat) SNew ops /\ exec SNew ops = Ok (rs, T) /\ (spec_exec SNew ops).2 = l /\
    ~ Exists is_write ops /\ length l <= n.
Lemma dup_state_step T l n o : dup_state T l n -> op_ok o -> ~ is_write o -> (N.of_nat n < 2 ^ 64)%N ->
  length (spec_step l o).2 <= n ->
  exists T', step T o = Ok ((spec_step l o).1, T') /\ dup_state T' (spec_step l o).2 n.
Proof.
  intros (ops & rs & Hl & E & <- & Hw & Hn) Ho Hno Hsz Hle.
  destruct (exec_step SNew ops rs T o Hl E Ho) as (T' & rs' & Es & Hl' & E' & El); [|lia|].
  { intros _. split; [by left|by left]. }
  exists T'. split; [done|]. exists (ops ++ [o]), rs'. split_and!; try done.
  rewrite Exists_app, Exists_cons, Exists_nil. by intros [?|[?|[]]].
Qed.
Lemma dup_state_asc T l n : dup_state T l n -> ascending l.
Proof.
  intros (ops & rs & Hl & E & <- & _). destruct (exec_inv_any False SNew ops rs T Hl E) as (ri & h & t & _ & _ & _ & <- & Ha & _); done.
Qed.
Lemma dup_state_more T l n n' : dup_state T l n -> n <= n' -> dup_state T l n'.
Proof. intros (ops & rs & H1 & H2 & H3 & H4 & H5) Hn. exists ops, rs. split_and!; try done. lia. Qed.

Lemma dup_insert_ok T l n k : dup_state T l n -> (N.of_nat (S n) < 2 ^ 64)%N ->
  exists T', dup_insert T k = Ok T' /\ dup_state T' (spec_insert k (held k l + 1) l) (S n).
Proof.
  intros Hs Hn. apply (dup_state_more _ _ _ (S n)) in Hs as Hs1; [|lia].
  destruct (dup_state_step T l (S n) (OGet (probe_key k)) Hs1) as (T1 & E1 & Hs2); [apply probe_key_legal|by intros []|done|by destruct Hs1 as (?&?&?&?&?&?&?)|].
  cbn [spec_step fst snd] in E1, Hs2. cbn [step] in E1. destruct (get T (probe_key k)) as [[r T1']| | | |] eqn:Eg; try done.
  cbn [obind] in E1. injection E1 as -> ->.
  destruct (dup_state_step T1 l (S n) (OInsert k (held k l + 1)) Hs2) as (T2 & E2 & Hs3); [done|by intros []|done| |].
  { cbn [spec_step snd]. rewrite spec_insert_length. destruct Hs as (?&?&?&?&?&?&?). lia. }
  cbn [spec_step fst snd] in E2, Hs3. cbn [step] in E2. unfold held in E2, Hs3. unfold dup_insert. rewrite Eg. cbn [obind].
  destruct (insert T1 k _) as [[r' T2']| | | |]; try done. cbn [obind] in *. injection E2 as -> ->. by exists T2.
Qed.
Lemma dup_delete_ok T l n k : dup_state T l n -> (N.of_nat (S n) < 2 ^ 64)%N -> held k l <> 0 ->
  exists T', dup_delete T k = Ok T' /\
    dup_state T' (if decide (held k l = 1) then spec_remove (probe_key k) l else spec_insert k (held k l - 1) l) (S n).
Proof.
  intros Hs Hn H0. apply (dup_state_more _ _ _ (S n)) in Hs as Hs1; [|lia].
  destruct (dup_state_step T l (S n) (OGet (probe_key k)) Hs1) as (T1 & E1 & Hs2); [apply probe_key_legal|by intros []|done|by destruct Hs1 as (?&?&?&?&?&?&?)|].
  cbn [spec_step fst snd] in E1, Hs2. cbn [step] in E1. unfold dup_delete. destruct (get T (probe_key k)) as [[r T1']| | | |] eqn:Eg; try done.
  cbn [obind] in *. injection E1 as -> ->. fold (held k l). destruct (decide (held k l = 1)).
  - destruct (dup_state_step T1 l (S n) (ORemove (probe_key k)) Hs2) as (T2 & E2 & Hs3); [apply probe_key_legal|by intros []|done| |].
    { cbn [spec_step snd]. rewrite spec_remove_length. destruct Hs as (?&?&?&?&?&?&?). lia. }
    cbn [spec_step fst snd] in E2, Hs3. cbn [step] in E2.
    destruct (remove T1 _) as [[r' T2']| | | |]; try done. cbn [obind] in *. injection E2 as -> ->. by exists T2.
  - destruct (held k l) as [|c] eqn:Eh; [done|]. replace (S c - 1) with c by lia.
    destruct (dup_state_step T1 l (S n) (OInsert k c) Hs2) as (T2 & E2 & Hs3); [done|by intros []|done| |].
    { cbn [spec_step snd]. rewrite spec_insert_length. destruct Hs as (?&?&?&?&?&?&?). lia. }
    cbn [spec_step fst snd] in E2, Hs3. cbn [step] in E2. cbn [usize_pred]. rewrite obind_Ok.
    destruct (insert T1 k _) as [[r' T2']| | | |]; try done. cbn [obind] in *. injection E2 as -> ->. by exists T2.
Qed.
Lemma dup_delete_missing T l n k : dup_state T l n -> (N.of_nat n < 2 ^ 64)%N -> held k l = 0 -> dev = true -> dup_delete T k = Panic.
Proof.
  intros Hs Hn H0 Hdev. destruct (dup_state_step T l n (OGet (probe_key k)) Hs) as (T1 & E1 & Hs2); [apply probe_key_legal|by intros []|done|by destruct Hs as (?&?&?&?&?&?&?)|].
  cbn [spec_step fst snd] in E1, Hs2. cbn [step] in E1. unfold dup_delete. destruct (get T (probe_key k)) as [[r T1']| | | |] eqn:Eg; try done.
  cbn [obind] in *. injection E1 as -> ->. fold (held k l). rewrite H0. cbn [usize_pred]. by rewrite Hdev.
Qed.

Lemma held_eq k k' (l : run) : kcmp k k' = Eq -> held k l = held k' l.
Proof.
  intros E. unfold held. f_equal. induction l as [|[x c] l IH]; [done|]. cbn [spec_get]. unfold probe_key in *.
  rewrite (ord_sym k x), (ord_sym k' x), (ord_eq k k' x E), IH. done.
Qed.

Definition nm (past calls : list (dup_call K)) : Prop :=
  forall calls1 k calls2, calls = calls1 ++ DDelete k :: calls2 ->
    copies k (deleted (past ++ calls1)) < copies k (inserted (past ++ calls1)).

Lemma inserted_app (a b : list (dup_call K)) : inserted (a ++ b) = inserted a ++ inserted b.
Proof. unfold inserted. by rewrite map_app, concat_app. Qed.
Lemma deleted_app (a b : list (dup_call K)) : deleted (a ++ b) = deleted a ++ deleted b.
Proof. unfold deleted. by rewrite map_app, concat_app. Qed.

Lemma nm_cons past c calls : (match c with DInsert _ => True | DDelete k => copies k (deleted past) < copies k (inserted past) end) ->
  (nm past (c :: calls) <-> nm (past ++ [c]) calls).
Proof.
  intros Hc. split; intros H c1 k c2 E.
  - rewrite <- app_assoc. apply (H (c :: c1) k c2). by rewrite E.
  - destruct c1 as [|c' c1].
    + injection E as -> ->. by rewrite app_nil_r.
    + injection E as -> ->. specialize (H c1 k c2 eq_refl). by rewrite <- app_assoc in H.
Qed.

Definition tallies (past : list (dup_call K)) (l : run) : Prop :=
  forall k, held k l + copies k (deleted past) = copies k (inserted past).

Lemma dup_run_ok calls : forall past T l n, dup_state T l n -> (N.of_nat (n + length calls) < 2 ^ 64)%N -> tallies past l ->
  (nm past calls /\ exists T' l', dup_run T calls = Ok T' /\ dup_state T' l' (n + length calls) /\ tallies (past ++ calls) l') \/
  (~ nm past calls /\ (dev = true -> dup_run T calls = Panic)).
Proof.
  induction calls as [|c calls IH]; intros past T l n Hs Hn Ht; cbn [dup_run].
  { left. split; [by intros [] ? ? ?|]. exists T, l. rewrite app_nil_r, Nat.add_0_r. done. }
  cbn [length] in Hn. assert (N.of_nat (S n + length calls) < 2 ^ 64)%N as Hn' by lia.
  pose proof (dup_state_asc _ _ _ Hs) as Ha. rewrite (cons_middle c past calls), app_assoc.
  replace (n + length (c :: calls)) with (S n + length calls) by (simpl; lia).
  destruct c as [k|k].
  - rewrite (nm_cons past (DInsert k)) by done.
    destruct (dup_insert_ok T l n k Hs) as (T1 & -> & Hs1); [lia|]. cbn [obind]. apply (IH _ T1 _ (S n) Hs1 Hn').
    intros k'. rewrite inserted_app, deleted_app, !copies_app. cbn. specialize (Ht k'). unfold held at 1.
    rewrite get_insert by done. destruct (kcmp k k') eqn:E; [|unfold held in Ht; lia..].
    simpl. rewrite (held_eq k k') by done. lia.
  - destruct (decide (held k l = 0)) as [H0|H0].
    + right. split; [|intros Hdev; by rewrite (dup_delete_missing T l n k Hs) by (done || lia)]. intros H.
      specialize (H [] k calls eq_refl). rewrite app_nil_r in H. specialize (Ht k). lia.
    + rewrite (nm_cons past (DDelete k)) by (specialize (Ht k); lia).
      destruct (dup_delete_ok T l n k Hs) as (T1 & -> & Hs1); [lia|done|]. cbn [obind]. apply (IH _ T1 _ (S n) Hs1 Hn').
      intros k'. rewrite inserted_app, deleted_app, !copies_app. cbn. specialize (Ht k'). pose proof (held_eq k k' l) as He.
      destruct (decide (held k l = 1)) as [H1|H1]; unfold held at 1.
      * rewrite get_remove by done. destruct (kcmp k k') eqn:E; [|unfold held in Ht; lia..].
        simpl. rewrite <- He in Ht by done. lia.
      * rewrite get_insert by done. destruct (kcmp k k') eqn:E; [|unfold held in Ht; lia..].
        simpl. rewrite <- He in Ht by done. lia.
Qed.

Lemma dup_top (calls : list (dup_call K)) : (N.of_nat (length calls) < 2 ^ 64)%N ->
  (no_missing calls -> exists T ks, dup_run tree_new calls = Ok T /\ bag_of calls ks /\ t_aug T = length ks /\
     forall i, exists r, get_by_augmentation T i = Ok r /\ fst <$> r = ks !! i) /\
  (~ no_missing calls -> dev = true -> dup_run tree_new calls = Panic).
Proof.
  intros Hn. assert (dup_state (tree_new (A:=nat)) [] 0) as Hs.
  { exists [], []. split; [|split_and!; try done; by intros ?%Exists_nil]. by split. }
  assert (nm [] calls <-> no_missing calls) as Hnm by done.
  destruct (dup_run_ok calls [] tree_new [] 0 Hs Hn) as [(Hok & T & l & E & Hs' & Ht)|(Hno & E)]; [done| |].
  - rewrite Hnm in Hok. split; [|done]. intros _. exists T, (bag l).
    pose proof (dup_state_asc _ _ _ Hs') as Ha. split; [done|]. split.
    { split; [by apply bag_sorted|]. intros k. rewrite copies_bag by done. apply Ht. }
    destruct Hs' as (ops & rs & Hl & Ex & El & Hw & _). split.
    + destruct (exec_inv_any True SNew ops rs T Hl Ex) as (ri & h & t & Hlow & Hri & HI & Hf & _); [done|].
      rewrite bag_length, <- El, <- Hf. assert (1 <= low (@SNew K nat)) as Hb by lia.
      exact (root_summary _ ri Hb _ dup_summary T h t HI).
    + intros i. destruct (search_rules_top _ dup_summary _ dup_rules SNew ops rs T i Hl Ex) as [-> _]; [done|].
      eexists. split; [done|]. rewrite El. unfold bag. rewrite <- (at_weight_bag snd fst l i). by destruct (at_weight _ _ _).
  - rewrite Hnm in Hno. done.
Qed.
End Dup.
