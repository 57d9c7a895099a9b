(** Sets and unions. *)
From stdpp Require Import list sorting.
From Verif Require Import Base Slots BinSearch LeafNode InnerNode Store Tree Remove Iterators Observe Cursor Augment BulkLoad
  History View MapSet SetHist SlotLemmas NodeLemmas Spec AugSpec Contents Order ContentsProof Logical Descent InsertProof
  InvLemmas InsertTop RemoveLeaf RemoveInner RemoveProof RemoveTop Lookup CursorProof AugProof ViewProof IterProof IntoProof
  BulkProof BulkTop HistProof HistTop AugTop MapTop ReadTop ShapeTop OrphanReach.

Section SetProof.
Context {K : Type} {KO : KeyOps K} {PF : Profile} {OL : OrdLaws K}.
Local Instance the_set_aug : AugOps K unit unit := unit_aug.
Notation tree := (tree K unit unit).
Implicit Types (l : list (K * unit)) (ks : list K).

Lemma asc_keys l : ascending l <-> keys_ascending (map fst l).
Proof.
  unfold ascending, keys_ascending. induction l as [|x l IH]; simpl.
  - split; constructor.
  - split; intros H; inversion H as [|? ? H1 H2]; subst; constructor; try (by apply IH).
    + by apply Forall_map.
    + by apply Forall_map in H2.
Qed.
Lemma keys_unit l ks : map fst l = ks -> l = map (fun k => (k, tt)) ks.
Proof. intros <-. induction l as [|[k []] l IH]; simpl; congruence. Qed.
Lemma unit_elem ks k u : (k, u) ∈ map (fun k => (k, tt)) ks <-> k ∈ ks.
Proof.
  destruct u. change (map (fun k => (k, tt)) ks) with ((fun k => (k, tt)) <$> ks). rewrite elem_of_list_fmap.
  split; [intros (y & [= ->] & ?); done|intros H; by exists k].
Qed.

Lemma mem_get p l : spec_mem p (map fst l) = match spec_get p l with Some _ => true | None => false end.
Proof. induction l as [|[k []] l IH]; simpl; [done|]. destruct (p k); simpl; done. Qed.
Lemma add_insert k l : map fst (spec_insert k tt l) = spec_add k (map fst l).
Proof. induction l as [|[x []] l IH]; simpl; [done|]. destruct (kcmp x k); simpl; congruence. Qed.
Lemma del_remove p l : ascending l -> probe_ok p -> map fst (spec_remove p l) = spec_del p (map fst l).
Proof.
  intros Ha Hp. induction Ha as [|[k []] l Ha IH Hf]; [done|]. unfold spec_del in *. cbn [spec_remove map fst List.filter].
  destruct (p k) eqn:E; cbn [map fst]; [|by rewrite IH..].
  clear -Hf Hp E. induction Hf as [|[x []] l Hx Hf IH]; [done|]. cbn [map fst List.filter] in *.
  destruct (p x) eqn:Ex; [|by rewrite <- IH..]. exfalso. pose proof (probe_mono p Hp k x Hx) as H. rewrite Ex in H.
  assert (p k = Lt) by by apply H. congruence.
Qed.
Lemma last_map l : list.last (map fst l) = fst <$> list.last l.
Proof. change (map fst l) with (fst <$> l). by rewrite fmap_last. Qed.

(** ** One call on a set *)
Definition to_op (o : set_op K) : op K unit :=
  match o with
  | SoInsert k => OInsert k tt
  | SoRemove p => ORemove p
  | SoContains p => OGet p
  | SoFirst => OFirst | SoLast => OLast | SoLen => OLen | SoIsEmpty => OIsEmpty
  | SoIter => OIter | SoIterRev => OIterRev
  | SoClear => OClear
  end.

Lemma set_collect_fwd fuel (T : tree) it l : iter_collect fuel T it = Ok l -> set_collect fuel true T it = Ok (map fst l).
Proof.
  revert it l. induction fuel as [|fuel IH]; intros it l; [done|]. cbn [iter_collect set_collect]. unfold set_iter_next.
  destruct (iter_next T it) as [[[kv|] it']| | | |]; try done; simpl.
  - destruct (iter_collect fuel T it') as [l'| | | |] eqn:E; try done. simpl. intros [= <-]. by rewrite (IH _ _ E).
  - intros [= <-]. done.
Qed.
Lemma set_collect_bwd fuel (T : tree) it l : iter_rcollect fuel T it = Ok l -> set_collect fuel false T it = Ok (map fst l).
Proof.
  revert it l. induction fuel as [|fuel IH]; intros it l; [done|]. cbn [iter_rcollect set_collect]. unfold set_iter_next_back.
  destruct (iter_next_back T it) as [[[kv|] it']| | | |]; try done; simpl.
  - destruct (iter_rcollect fuel T it') as [l'| | | |] eqn:E; try done. simpl. intros [= <-]. by rewrite (IH _ _ E).
  - intros [= <-]. done.
Qed.

Lemma set_step_ok b (T : tree) l o : reachable b T l -> set_op_ok o ->
  (is_set_remove o -> orphan_free (length (spec_begin b))) ->
  (N.of_nat (length (set_spec_step (map fst l) o).2) < 2 ^ 64)%N ->
  exists T' l', set_step T o = Ok ((set_spec_step (map fst l) o).1, T') /\ reachable b T' l' /\
    map fst l' = (set_spec_step (map fst l) o).2.
Proof.
  intros Hr Ho Hrem Hn. destruct (reachable_entries b T l Hr) as [He Ha].
  assert (map fst (spec_step l (to_op o)).2 = (set_spec_step (map fst l) o).2) as El.
  { destruct o; simpl; try done; [apply add_insert|by apply del_remove]. }
  destruct (reachable_step b T l (to_op o) Hr) as (T' & E & Hr').
  { by destruct o. }
  { intros H. split; [apply Hrem; by destruct o|by left]. }
  { rewrite <- El in Hn. by rewrite map_length in Hn. }
  exists T', (spec_step l (to_op o)).2. split; [|done].
  destruct o; cbn [to_op step spec_step set_step set_spec_step fst snd] in *.
  - unfold set_insert. destruct (insert T k tt) as [[r T1]| | | |]; try done. simpl in *. injection E as -> ->.
    rewrite mem_get. by destruct (spec_get (probe_key k) l).
  - unfold set_remove. destruct (remove T p) as [[r T1]| | | |]; try done. simpl in *. injection E as -> ->.
    rewrite mem_get. by destruct (spec_get p l).
  - unfold set_contains. destruct (get T p) as [[r T1]| | | |]; try done. simpl in *. injection E as -> ->.
    rewrite mem_get. by destruct (spec_get p l).
  - unfold set_first. destruct (Tree.first T) as [r| | | |]; try done. simpl in *. injection E as -> ->. by destruct l.
  - unfold set_last. destruct (Tree.last T) as [r| | | |]; try done. simpl in *. injection E as -> ->. by rewrite last_map.
  - injection E as E ->. unfold set_len. by rewrite E, map_length.
  - injection E as E ->. unfold set_is_empty. rewrite E. by destruct l.
  - unfold set_keys, set_len. destruct (entries T) as [r| | | |] eqn:Ee; try done. simpl in E. injection E as -> ->.
    unfold entries in Ee. destruct (iter_new T') as [it| | | |]; try done. rewrite obind_Ok in Ee. rewrite obind_Ok.
    by rewrite (set_collect_fwd _ _ _ _ Ee).
  - unfold set_keys, set_len. destruct (entries_rev T) as [r| | | |] eqn:Ee; try done. simpl in E. injection E as -> ->.
    unfold entries_rev in Ee. destruct (iter_new T') as [it| | | |]; try done. rewrite obind_Ok in Ee. rewrite obind_Ok.
    rewrite (set_collect_bwd _ _ _ _ Ee). by rewrite map_rev.
  - unfold set_clear. destruct (clear T) as [T1| | | |]; try done. simpl in *. by injection E as ->.
Qed.

Lemma set_run_ok b (T : tree) l ops : reachable b T l -> Forall set_op_ok ops ->
  (Exists is_set_remove ops -> orphan_free (length (spec_begin b))) -> set_fits (map fst l) ops ->
  exists T' l', set_run T ops = Ok ((set_spec_run (map fst l) ops).1, T') /\ reachable b T' l' /\
    map fst l' = (set_spec_run (map fst l) ops).2.
Proof.
  revert T l. induction ops as [|o ops IH]; intros T l Hr Ho Hrem Hf; cbn [set_run set_spec_run].
  { exists T, l. done. }
  inversion Ho as [|? ? Ho1 Ho2]; subst. cbn [set_fits] in Hf. destruct Hf as [_ Hf].
  assert (N.of_nat (length (set_spec_step (map fst l) o).2) < 2 ^ 64)%N as Hn by (destruct ops; apply Hf).
  destruct (set_step_ok b T l o Hr Ho1) as (T1 & l1 & E1 & Hr1 & El1); [|done|].
  { intros H. apply Hrem. by left. }
  rewrite E1, obind_Ok. destruct (set_spec_step (map fst l) o) as [r l2]. cbn [fst snd] in *. subst l2.
  destruct (IH T1 l1 Hr1 Ho2) as (T2 & l2 & E2 & Hr2 & El2); [|done|].
  { intros H. apply Hrem. by right. }
  rewrite E2, obind_Ok. destruct (set_spec_run (map fst l1) ops). cbn [fst snd] in *. exists T2, l2. done.
Qed.

(** Any bulk load: right, or stopped at a removal. *)
Lemma set_step_any b (T : tree) l o : reachable b T l -> set_op_ok o ->
  (N.of_nat (length (set_spec_step (map fst l) o).2) < 2 ^ 64)%N ->
  (exists T' l', set_step T o = Ok ((set_spec_step (map fst l) o).1, T') /\ reachable b T' l' /\
    map fst l' = (set_spec_step (map fst l) o).2) \/
  ~ orphan_free (length (spec_begin b)) /\ exists p, o = SoRemove p /\ spec_mem p (map fst l) = true /\
    (set_step T o = Panic \/ dev = false /\ set_step T o = UB).
Proof.
  intros Hr Ho Hn. assert (is_set_remove o \/ ~ is_set_remove o) as [Hrem|Hrem] by (destruct o; simpl; auto).
  2: { left. by apply set_step_ok. }
  destruct o as [| p | | | | | | | | ]; try done. destruct (reachable_entries b T l Hr) as [_ Ha].
  destruct (reachable_remove b T l p Hr Ho (or_introl eq_refl)) as [(T' & E & Hr')|(Hof & Hg & E)].
  - left. exists T', (spec_remove p l). split; [|split; [done|by apply del_remove]].
    cbn [set_step set_spec_step fst]. unfold set_remove.
    destruct (remove T p) as [[r T1]| | | |]; try done. simpl. injection E as -> ->. rewrite mem_get.
    by destruct (spec_get p l).
  - right. split; [done|]. exists p. split; [done|]. split.
    + rewrite mem_get. by destruct (spec_get p l).
    + cbn [set_step]. unfold set_remove.
      destruct (remove T p); try (by destruct E as [|[]]); [by left|right]. by destruct E as [|[]].
Qed.

Lemma set_run_any b (T : tree) l ops : reachable b T l -> Forall set_op_ok ops -> set_fits (map fst l) ops ->
  (exists T' l', set_run T ops = Ok ((set_spec_run (map fst l) ops).1, T') /\ reachable b T' l' /\
    map fst l' = (set_spec_run (map fst l) ops).2) \/
  ~ orphan_free (length (spec_begin b)) /\
  exists ops1 p ops2 T' l', ops = ops1 ++ SoRemove p :: ops2 /\
    set_run T ops1 = Ok ((set_spec_run (map fst l) ops1).1, T') /\ reachable b T' l' /\
    map fst l' = (set_spec_run (map fst l) ops1).2 /\ spec_mem p (map fst l') = true /\
    (set_run T ops = Panic \/ dev = false /\ set_run T ops = UB).
Proof.
  revert T l. induction ops as [|o ops IH]; intros T l Hr Ho Hf; cbn [set_run set_spec_run].
  { left. exists T, l. done. }
  inversion Ho as [|? ? Ho1 Ho2]; subst. cbn [set_fits] in Hf. destruct Hf as [_ Hf].
  assert (N.of_nat (length (set_spec_step (map fst l) o).2) < 2 ^ 64)%N as Hn by (destruct ops; apply Hf).
  destruct (set_step_any b T l o Hr Ho1 Hn) as [(T1 & l1 & E1 & Hr1 & El1)|(Hof & p & -> & Hm & E1)].
  2: { right. split; [done|]. exists [], p, ops, T, l. do 4 (split; [done|]). split; [done|].
       destruct E1 as [->|[? ->]]; [by left|by right]. }
  rewrite E1, obind_Ok. destruct (set_spec_step (map fst l) o) as [r l2] eqn:Es. cbn [fst snd] in *. subst l2.
  destruct (IH T1 l1 Hr1 Ho2 Hf) as [(T2 & l2 & E2 & Hr2 & El2)|(Hof & ops1 & p & ops2 & T2 & l2 & -> & E2 & Hr2 & El2 & Hm & E3)].
  - left. rewrite E2, obind_Ok. destruct (set_spec_run (map fst l1) ops). cbn [fst snd] in *. exists T2, l2. done.
  - right. split; [done|]. exists (o :: ops1), p, ops2, T2, l2. split; [done|]. cbn [set_run set_spec_run].
    rewrite E1, obind_Ok, E2, obind_Ok, Es. destruct (set_spec_run (map fst l1) ops1). cbn [fst snd] in *.
    do 4 (split; [done|]). destruct E3 as [->|[? ->]]; [by left|by right].
Qed.

(** ** Where sets come from *)
Definition to_start (b : set_start K) : start K unit :=
  match b with StNew => SNew | StCollect ks => SCollect (map (fun k => (k, tt)) ks) end.
Lemma collected_load b : collected (set_given b) (map fst (spec_begin (to_start b))).
Proof.
  destruct b as [|ks]; simpl.
  { split; [constructor|]. intros k. rewrite elem_of_nil. split; [done|]. intros (a & z & E & _). by destruct a. }
  destruct (spec_load_elem (map (fun k => (k, tt)) ks)) as [Ha He]. split; [by apply asc_keys|]. intros k.
  assert (k ∈ map fst (spec_load (map (fun k => (k, tt)) ks)) <-> (k, tt) ∈ spec_load (map (fun k => (k, tt)) ks)) as ->.
  { set (l := spec_load _). change (map fst l) with (fst <$> l). rewrite elem_of_list_fmap.
    split; [intros ([k' []] & -> & ?); done|intros H; by exists (k, tt)]. }
  rewrite He. rewrite (last_for_pair). split.
  - intros (a & z & E & H). apply map_eq_app in E as (a' & z1 & -> & <- & E).
    destruct z1 as [|k' z']; [done|]. cbn [map] in E. injection E as -> <-. exists a', z'. split; [done|].
    intros k' Hk. apply (H (k', tt)). by apply unit_elem.
  - intros (a & z & -> & H). exists (map (fun k => (k, tt)) a), (map (fun k => (k, tt)) z). split; [by rewrite map_app|].
    intros [k' []] Hk%unit_elem. by apply H.
Qed.
Lemma keys_unique ks1 ks2 : keys_ascending ks1 -> keys_ascending ks2 -> (forall k, k ∈ ks1 <-> k ∈ ks2) -> ks1 = ks2.
Proof.
  intros H1. revert ks2. induction H1 as [|x l1 H1 IH Hx]; intros ks2 H2 H.
  { destruct ks2 as [|y l2]; [done|]. exfalso. apply (elem_of_nil y). apply H. by left. }
  destruct H2 as [|y l2 H2 Hy]; [exfalso; apply (elem_of_nil x); apply H; by left|].
  rewrite Forall_forall in Hx, Hy.
  assert (forall (z : K) (l : list K), z ∈ l -> (forall w, w ∈ l -> kcmp z w = Lt) -> False) as Hz.
  { intros z l Hin Hall. specialize (Hall z Hin). by rewrite ord_refl in Hall. }
  assert (x = y) as <-.
  { assert (x ∈ y :: l2) as Hxy by (apply H; by left). assert (y ∈ x :: l1) as Hyx by (apply H; by left).
    apply elem_of_cons in Hxy as [->|Hxy]; [done|]. apply elem_of_cons in Hyx as [->|Hyx]; [done|].
    apply Hy in Hxy. apply Hx in Hyx. rewrite (ord_sym x y), Hyx in Hxy. done. }
  f_equal. apply IH; [done|]. intros k. split; intros Hk.
  - assert (k ∈ x :: l2) as Hk' by (apply H; by right). apply elem_of_cons in Hk' as [->|?]; [by destruct (Hz x l1)|done].
  - assert (k ∈ x :: l1) as Hk' by (apply H; by right). apply elem_of_cons in Hk' as [->|?]; [by destruct (Hz x l2)|done].
Qed.
Lemma set_begin_ok b (l0 : list K) : collected (set_given b) l0 -> (N.of_nat (length l0) < 2 ^ 64)%N ->
  exists T, set_begin b = Ok T /\ reachable (to_start b) T (map (fun k => (k, tt)) l0) /\
    length (spec_begin (to_start b)) = length l0.
Proof.
  intros [Hc1 Hc2] Hn. destruct (collected_load b) as [Hd1 Hd2].
  assert (map fst (spec_begin (to_start b)) = l0) as E.
  { apply keys_unique; [done|done|]. intros k. by rewrite Hd2, Hc2. }
  rewrite <- (keys_unit _ _ E). apply (f_equal length) in E. rewrite map_length in E.
  destruct (history_ok (A:=unit) (to_start b) []) as (T & ET & _).
  { split; [by destruct b|constructor|split; [by rewrite E|done]| |done]. intros H. inversion H. }
  exists T. split; [|split; [|done]].
  - unfold exec in ET. destruct b; cbn [to_start begin set_begin] in *.
    + rewrite obind_Ok in ET. simpl in ET. injection ET as <-. done.
    + unfold set_from_iter. destruct (from_iter _) as [T'| | | |]; try done. simpl in ET. by injection ET as ->.
  - eexists [], _. split; [|split; [exact ET|done]].
    split; [by destruct b|constructor|split; [by rewrite E|done]|done].
Qed.

Lemma set_history_ok (b : set_start K) ops : exists l0 : list K, collected (set_given b) l0 /\
  (set_legal l0 ops -> exists T0 T, set_begin b = Ok T0 /\
    set_run T0 ops = Ok ((set_spec_run l0 ops).1, T) /\ set_keys true T = Ok (set_spec_run l0 ops).2).
Proof.
  exists (map fst (spec_begin (to_start b))). pose proof (collected_load b) as Hc. split; [done|]. intros [Ho Hf Hrem].
  destruct (set_begin_ok b _ Hc) as (T0 & E0 & Hr & El); [by destruct ops; apply Hf|].
  rewrite <- (keys_unit _ _ eq_refl) in Hr.
  destruct (set_run_ok _ T0 _ ops Hr Ho) as (T & l & E & Hr' & <-); [|done|].
  { rewrite El. done. }
  exists T0, T. split; [done|]. split; [done|].
  destruct (set_step_ok _ T l SoIter Hr') as (T2 & l2 & E2 & _ & _).
  - done.
  - done.
  - simpl. rewrite map_length. by eapply reachable_size.
  - simpl in E2. destruct (set_keys true T); try done. simpl in E2. congruence.
Qed.

Lemma reachable_keys b (T : tree) l : reachable b T l -> set_keys true T = Ok (map fst l).
Proof.
  intros Hr. destruct (set_step_ok _ T l SoIter Hr) as (T2 & l2 & E2 & _ & _).
  - done.
  - done.
  - simpl. rewrite map_length. by eapply reachable_size.
  - simpl in E2. destruct (set_keys true T); try done. simpl in E2. congruence.
Qed.
Lemma set_history_gen (b : set_start K) ops : exists l0 : list K, collected (set_given b) l0 /\
  (Forall set_op_ok ops -> set_fits l0 ops -> exists T0, set_begin b = Ok T0 /\
    ((exists T, set_run T0 ops = Ok ((set_spec_run l0 ops).1, T) /\ set_keys true T = Ok (set_spec_run l0 ops).2) \/
     ~ orphan_free (length l0) /\
     exists ops1 p ops2 T, ops = ops1 ++ SoRemove p :: ops2 /\
       set_run T0 ops1 = Ok ((set_spec_run l0 ops1).1, T) /\ set_keys true T = Ok (set_spec_run l0 ops1).2 /\
       spec_mem p (set_spec_run l0 ops1).2 = true /\
       (set_run T0 ops = Panic \/ dev = false /\ set_run T0 ops = UB))).
Proof.
  exists (map fst (spec_begin (to_start b))). pose proof (collected_load b) as Hc. split; [done|]. intros Ho Hf.
  destruct (set_begin_ok b _ Hc) as (T0 & E0 & Hr & El); [by destruct ops; apply Hf|].
  rewrite <- (keys_unit _ _ eq_refl) in Hr. exists T0. split; [done|].
  destruct (set_run_any _ T0 _ ops Hr Ho Hf) as [(T & l & E & Hr' & <-)|(Hof & ops1 & p & ops2 & T & l & -> & E & Hr' & El' & Hm & E')].
  - left. exists T. split; [done|]. by eapply reachable_keys.
  - right. rewrite <- El. split; [done|]. exists ops1, p, ops2, T. do 2 (split; [done|]).
    rewrite <- El'. split; [by eapply reachable_keys|]. done.
Qed.

Lemma set_reachable_tree (T : set_tree K) ks : set_reachable T ks ->
  exists b, reachable b T (map (fun k => (k, tt)) ks) /\ keys_ascending ks.
Proof.
  intros (b & l0 & ops & T0 & rs & Hc & Ho & Hf & E0 & E & <-).
  destruct (set_begin_ok b _ Hc) as (T0' & E0' & Hr & El); [by destruct ops; apply Hf|].
  rewrite E0 in E0'. injection E0' as <-.
  destruct (set_run_any _ T0 _ ops Hr Ho) as [(T' & l & E' & Hr' & El')|(_ & ? & ? & ? & ? & ? & _ & _ & _ & _ & _ & [E'|[_ E']])].
  { by rewrite map_map, map_id. }
  2, 3: congruence.
  rewrite map_map, map_id in E', El'. rewrite E in E'. injection E' as -> ->.
  exists (to_start b). rewrite <- El'. rewrite <- (keys_unit _ _ eq_refl). split; [done|]. apply asc_keys.
  by eapply reachable_entries.
Qed.

(** ** [into_iter] of a set *)
Definition keyed (x : option (K * unit) * nat) : option K * nat := (fst <$> fst x, snd x).
Lemma set_into_drive_eq it ends rs (it' : into_iter K unit unit) : into_drive it ends = Ok (rs, it') ->
  set_into_drive it ends = Ok (map keyed rs, it').
Proof.
  revert it rs. induction ends as [|e ends IH]; intros it rs; cbn [into_drive set_into_drive]; [intros [= <- <-]; done|].
  unfold set_into_next, set_into_next_back. destruct e.
  - destruct (into_iter_next it) as [[r it1]| | | |]; try done. rewrite !obind_Ok.
    destruct (into_drive it1 ends) as [[l it2]| | | |] eqn:E; try done. rewrite obind_Ok. intros [= <- <-].
    by rewrite (IH _ _ E).
  - destruct (into_iter_next_back it) as [[r it1]| | | |]; try done. rewrite !obind_Ok.
    destruct (into_drive it1 ends) as [[l it2]| | | |] eqn:E; try done. rewrite obind_Ok. intros [= <- <-].
    by rewrite (IH _ _ E).
Qed.
Lemma deque_keys l ends : map keyed (deque_drive l ends).1 = (deque_drive (map fst l) ends).1.
Proof.
  revert l. induction ends as [|e ends IH]; intros l; [done|]. cbn [deque_drive].
  assert (map fst (if e then tail l else removelast l) = (if e then tail (map fst l) else removelast (map fst l))) as E.
  { destruct e; [by destruct l|]. clear. induction l as [|x l IH]; [done|]. destruct l; [done|]. simpl in *. by rewrite IH. }
  rewrite <- E. specialize (IH (if e then tail l else removelast l)). revert IH.
  destruct (deque_drive _ ends) as [rs l'], (deque_drive (map fst _) ends) as [rs' l'']. cbn [fst map]. intros <-.
  f_equal. unfold keyed. cbn [fst snd]. f_equal.
  - destruct e; [by destruct l|]. by rewrite last_map.
  - by rewrite map_length.
Qed.
Lemma set_into_ok (T : set_tree K) ks : set_reachable T ks ->
  exists it, set_into_iter T = Ok it /\ ii_len it = length ks /\
    forall ends, exists it', set_into_drive it ends = Ok ((deque_drive ks ends).1, it').
Proof.
  intros Hr. destruct (set_reachable_tree _ _ Hr) as (b & Hr' & _).
  destruct (into_iter_ok b T _ Hr') as (it & E & El & Hd). exists it. split; [done|]. rewrite map_length in El. split; [done|].
  intros ends. destruct (Hd ends) as (it' & E' & _). exists it'. rewrite (set_into_drive_eq _ _ _ _ E').
  rewrite deque_keys, map_map, map_id. done.
Qed.

(** ** Union *)
Fixpoint umerge (la : list K) : list K -> list K :=
  fix go (lb : list K) : list K :=
  match la, lb with
  | [], _ => lb
  | _, [] => la
  | x :: la', y :: lb' =>
      match kcmp x y with
      | Lt => x :: umerge la' lb
      | Gt => y :: go lb'
      | Eq => x :: umerge la' lb'
      end
  end.
Lemma umerge_nil_l lb : umerge [] lb = lb. Proof. by destruct lb. Qed.
Lemma umerge_nil_r la : umerge la [] = la. Proof. by destruct la. Qed.
Lemma umerge_cons x la y lb : umerge (x :: la) (y :: lb) =
  match kcmp x y with
  | Lt => x :: umerge la (y :: lb)
  | Gt => y :: umerge (x :: la) lb
  | Eq => x :: umerge la lb
  end.
Proof. simpl. by destruct (kcmp x y). Qed.

Lemma umerge_ind (P : list K -> list K -> Prop) :
  (forall lb, P [] lb) -> (forall la, P la []) ->
  (forall x la y lb, (kcmp x y = Lt -> P la (y :: lb)) -> (kcmp x y = Gt -> P (x :: la) lb) -> (kcmp x y = Eq -> P la lb) ->
    P (x :: la) (y :: lb)) -> forall la lb, P la lb.
Proof.
  intros H1 H2 H3. induction la as [|x la IHa]; [done|]. induction lb as [|y lb IHb]; [done|]. apply H3; auto.
Qed.
Lemma umerge_length la lb : length la <= length (umerge la lb) /\ length lb <= length (umerge la lb) <= length la + length lb.
Proof.
  revert la lb. apply umerge_ind; [intros lb|intros la|intros x la y lb H H0 H1].
  - rewrite umerge_nil_l. simpl. lia.
  - rewrite umerge_nil_r. simpl. lia.
  - rewrite umerge_cons. destruct (kcmp x y); simpl in *.
    + destruct (H1 eq_refl) as (? & ? & ?). lia.
    + destruct (H eq_refl) as (? & ? & ?). lia.
    + destruct (H0 eq_refl) as (? & ? & ?). lia.
Qed.

Lemma ka_inv x (la : list K) : keys_ascending (x :: la) -> keys_ascending la /\ Forall (fun y => kcmp x y = Lt) la.
Proof. intros H. by inversion H. Qed.
Lemma umerge_elem la lb k : k ∈ umerge la lb -> k ∈ la \/ k ∈ lb.
Proof.
  revert la lb. apply (umerge_ind (fun la lb => k ∈ umerge la lb -> k ∈ la \/ k ∈ lb)); [intros lb|intros la|intros x la y lb H H0 H1].
  - rewrite umerge_nil_l. by right.
  - rewrite umerge_nil_r. by left.
  - rewrite umerge_cons. destruct (kcmp x y); intros [->|Hin]%elem_of_cons; rewrite ?elem_of_cons; try auto.
    + destruct (H1 eq_refl Hin); auto.
    + destruct (H eq_refl Hin) as [?|?%elem_of_cons]; auto.
    + destruct (H0 eq_refl Hin) as [?%elem_of_cons|?]; auto.
Qed.
Lemma cmp_lt_gt (x y : K) : kcmp x y = Gt -> kcmp y x = Lt.
Proof. intros H. by rewrite (ord_sym x y), H. Qed.
Lemma umerge_asc la lb : keys_ascending la -> keys_ascending lb -> keys_ascending (umerge la lb).
Proof.
  revert la lb. apply (umerge_ind (fun la lb => keys_ascending la -> keys_ascending lb -> keys_ascending (umerge la lb)));
    [intros lb Ha Hb|intros la Ha Hb|intros x la y lb H H0 H1 Ha Hb].
  - by rewrite umerge_nil_l.
  - by rewrite umerge_nil_r.
  - rewrite umerge_cons. destruct (ka_inv _ _ Ha) as [Ha1 Ha2]. destruct (ka_inv _ _ Hb) as [Hb1 Hb2].
    rewrite Forall_forall in Ha2, Hb2. destruct (kcmp x y) eqn:E.
    + constructor; [by apply H1|]. apply Forall_forall. intros z [Hz|Hz]%umerge_elem; [by apply Ha2|].
      rewrite (ord_eq x y z E). by apply Hb2.
    + constructor; [by apply H|]. apply Forall_forall. intros z [Hz|Hz]%umerge_elem; [by apply Ha2|].
      apply elem_of_cons in Hz as [->|Hz]; [done|]. eapply ord_trans; [done|by apply Hb2].
    + constructor; [by apply H0|]. apply cmp_lt_gt in E. apply Forall_forall. intros z [Hz|Hz]%umerge_elem; [|by apply Hb2].
      apply elem_of_cons in Hz as [->|Hz]; [done|]. eapply ord_trans; [done|by apply Ha2].
Qed.
Lemma umerge_is la lb : keys_ascending la -> keys_ascending lb -> union_is la lb (umerge la lb).
Proof.
  intros Ha Hb. split; [by apply umerge_asc|]. intros k. revert la lb Ha Hb.
  apply (umerge_ind (fun la lb => keys_ascending la -> keys_ascending lb ->
    k ∈ umerge la lb <-> k ∈ la \/ (k ∈ lb /\ forall k', k' ∈ la -> kcmp k' k <> Eq)));
    [intros lb Ha Hb|intros la Ha Hb|intros x la y lb H H0 H1 Ha Hb].
  - rewrite umerge_nil_l. split; [intros Hin; right; split; [done|intros k' H; by apply elem_of_nil in H]|].
    intros [H|[H _]]; [by apply elem_of_nil in H|done].
  - rewrite umerge_nil_r. split; [by left|]. intros [H|[H _]]; [done|by apply elem_of_nil in H].
  - rewrite umerge_cons. destruct (ka_inv _ _ Ha) as [Ha1 Ha2]. destruct (ka_inv _ _ Hb) as [Hb1 Hb2].
    rewrite Forall_forall in Ha2, Hb2. destruct (kcmp x y) eqn:E.
    + rewrite !elem_of_cons, (H1 eq_refl) by done. split.
      * intros [->|[Hin|[Hin Hn]]]; [by left; left|by left; right|]. right. split; [by right|].
        intros k' [->|Hk]%elem_of_cons; [|by apply Hn]. rewrite (ord_eq x y k E). by rewrite Hb2.
      * intros [[->|Hin]|[[->|Hin] Hn]]; [by left|by right; left| |].
        -- destruct (Hn x); [by left|done].
        -- right. right. split; [done|]. intros k' Hk. apply Hn. by right.
    + rewrite elem_of_cons, (H eq_refl) by done. rewrite (elem_of_cons la). split.
      * intros [->|[Hin|[Hin Hn]]]; [by left; left|by left; right|]. right. split; [done|].
        intros k' [->|Hk]%elem_of_cons; [|by apply Hn].
        apply elem_of_cons in Hin as [->|Hin]; [by rewrite E|]. rewrite (ord_trans x y k); [done..|by apply Hb2].
      * intros [[->|Hin]|[Hin Hn]]; [by left|by right; left|]. right. right. split; [done|]. intros k' Hk. apply Hn. by right.
    + rewrite elem_of_cons, (H0 eq_refl) by done. apply cmp_lt_gt in E. rewrite (elem_of_cons lb). split.
      * intros [->|[Hin|[Hin Hn]]]; [|by left|by right; split; [right|]]. right. split; [by left|].
        intros k' Hk Hc. assert (kcmp y k' = Lt) as Hy.
        { apply elem_of_cons in Hk as [->|Hk]; [done|]. eapply ord_trans; [done|by apply Ha2]. }
        rewrite (ord_sym y k'), Hy in Hc. done.
      * intros [Hin|[[->|Hin] Hn]]; [by right; left|by left|]. right. right. by split.
Qed.

(** What the iterators of the two sets still give. *)
Definition rest_is (T : set_tree K) (it : iter) (ks : list K) : Prop :=
  exists b ri h t rest, 1 <= low b <= 16 /\ InvAt (A:=unit) (low (b : start K unit)) ri False T h t /\ fwd t it rest /\ map fst rest = ks.
Lemma rest_next T it ks : rest_is T it ks -> exists it', set_iter_next T it = Ok (head ks, it') /\ rest_is T it' (tail ks).
Proof.
  intros (b & ri & h & t & rest & Hl & HI & Hf & <-).
  destruct (iter_next_ok (low b) ri False ltac:(lia) T h t it rest HI Hf) as (it' & E & Hf' & _).
  exists it'. unfold set_iter_next. rewrite E, obind_Ok. split; [by destruct rest|].
  exists b, ri, h, t, (tail rest). split_and!; try done; try lia. by destruct rest.
Qed.
Lemma rest_len T it ks : rest_is T it ks -> iter_size_hint it = length ks.
Proof. intros (b & ri & h & t & rest & Hl & HI & Hf & <-). unfold iter_size_hint. destruct Hf as [-> _]. by rewrite map_length. Qed.
Lemma rest_new T ks : set_reachable T ks -> exists it, iter_new T = Ok it /\ rest_is T it ks.
Proof.
  intros Hr. destruct (set_reachable_tree _ _ Hr) as (b & Hr' & _).
  destruct (reachable_any False b T _ Hr') as (ri & h & t & Hlow & _ & HI & Ef & Ha & _); [done|].
  destruct (iter_new_ok (low b) ri False ltac:(lia) T h t HI) as (it & E & Hf & _). exists it. split; [done|].
  exists b, ri, h, t, (flat t). split_and!; try done; try lia. by rewrite Ef, map_map, map_id.
Qed.

Definition mstate (a b : set_tree K) (m : merge_iter K) (la lb : list K) : Prop :=
  exists ra rb, rest_is a (mi_a m) ra /\ rest_is b (mi_b m) rb /\
    match mi_peeked m with
    | None => la = ra /\ lb = rb
    | Some (PeekedA x) => la = x :: ra /\ lb = rb
    | Some (PeekedB y) => la = ra /\ lb = y :: rb
    end.
Lemma union_next_ok a b m la lb : mstate a b m la lb ->
  exists m' la' lb', union_next a b m = Ok (head (umerge la lb), m') /\ mstate a b m' la' lb' /\
    umerge la' lb' = tail (umerge la lb).
Proof.
  intros (ra & rb & Ha & Hb & Hp).
  assert (exists ia ib ra' rb', rest_is a ia ra' /\ rest_is b ib rb' /\
    ra' = tail la /\ rb' = tail lb /\
    union_next a b m = let '(an, bn, m') := match head la, head lb with
      | Some x, Some y =>
          match kcmp x y with
          | Lt => (Some x, None, mkMerge ia ib (Some (PeekedB y)))
          | Gt => (None, Some y, mkMerge ia ib (Some (PeekedA x)))
          | Eq => (Some x, Some y, mkMerge ia ib None)
          end
      | _, _ => (head la, head lb, mkMerge ia ib None)
      end in Ok (match an with Some x => Some x | None => bn end, m')) as (ia & ib & ra' & rb' & Ha' & Hb' & -> & -> & E).
  { destruct (rest_next _ _ _ Ha) as (ia & Ea & Ha'). destruct (rest_next _ _ _ Hb) as (ib & Eb & Hb').
    unfold union_next, merge_nexts. destruct (mi_peeked m) as [[x|y]|]; destruct Hp as [-> ->].
    - exists (mi_a m), ib, ra, (tail rb). rewrite Eb, !obind_Ok. split_and!; try done.
    - exists ia, (mi_b m), (tail ra), rb. rewrite Ea, !obind_Ok. split_and!; try done.
    - exists ia, ib, (tail ra), (tail rb). rewrite Ea, Eb, !obind_Ok. split_and!; try done. }
  rewrite E. destruct la as [|x la]; [|destruct lb as [|y lb]].
  - rewrite umerge_nil_l. cbn [head tail]. exists (mkMerge ia ib None), [], (tail lb). split; [by destruct lb|].
    split; [by exists [], (tail lb)|]. by rewrite umerge_nil_l.
  - rewrite umerge_nil_r. cbn [head tail]. exists (mkMerge ia ib None), la, []. split; [done|].
    split; [by exists la, []|]. by rewrite umerge_nil_r.
  - cbn [head tail]. rewrite umerge_cons. destruct (kcmp x y); cbn [head tail].
    + exists (mkMerge ia ib None), la, lb. split; [done|]. split; [by exists la, lb|]. done.
    + exists (mkMerge ia ib (Some (PeekedB y))), la, (y :: lb). split; [done|]. split; [by exists la, lb|]. done.
    + exists (mkMerge ia ib (Some (PeekedA x))), (x :: la), lb. split; [done|]. split; [by exists la, lb|]. done.
Qed.
Lemma union_hint_ok a b m la lb : mstate a b m la lb ->
  (union_size_hint m).1 <= length (umerge la lb) <= (union_size_hint m).2.
Proof.
  intros (ra & rb & Ha & Hb & Hp). apply rest_len in Ha, Hb. pose proof (umerge_length la lb) as Hl.
  unfold union_size_hint, merge_lens. destruct (mi_peeked m) as [[x|y]|]; destruct Hp as [-> ->]; cbn [fst snd length] in *; lia.
Qed.
Lemma union_drive_ok a b n m la lb : mstate a b m la lb ->
  exists rs, union_drive a b m n = Ok rs /\ length rs = n /\
    forall i r, rs !! i = Some r -> r.1 = umerge la lb !! i /\ r.2.1 <= length (umerge la lb) - S i <= r.2.2.
Proof.
  revert m la lb. induction n as [|n IH]; intros m la lb Hm; cbn [union_drive].
  { exists []. split_and!; done. }
  destruct (union_next_ok a b m la lb Hm) as (m' & la' & lb' & E & Hm' & Eu). rewrite E, obind_Ok.
  destruct (IH m' la' lb' Hm') as (rs & -> & El & Hrs). rewrite obind_Ok. eexists. split; [done|]. split; [simpl; lia|].
  pose proof (union_hint_ok a b m' la' lb' Hm') as Hh. rewrite Eu in Hrs, Hh.
  assert (length (tail (umerge la lb)) = length (umerge la lb) - 1) as Et by (destruct (umerge la lb); simpl; lia).
  intros [|i] r; simpl.
  - intros [= <-]. simpl. split; [by destruct (umerge la lb)|]. lia.
  - intros Hi. destruct (Hrs i r Hi) as [-> ?]. split; [by destruct (umerge la lb)|]. lia.
Qed.

Lemma union_ok (a b : set_tree K) la lb : set_reachable a la -> set_reachable b lb ->
  exists u m, union_is la lb u /\ set_union a b = Ok m /\
    (union_size_hint m).1 <= length u <= (union_size_hint m).2 /\
    union_min a b m = Ok (head u) /\
    forall n, exists rs, union_drive a b m n = Ok rs /\ length rs = n /\
      forall i r, rs !! i = Some r -> r.1 = u !! i /\ r.2.1 <= length u - S i <= r.2.2.
Proof.
  intros Ha Hb. destruct (set_reachable_tree _ _ Ha) as (ba & _ & Hka). destruct (set_reachable_tree _ _ Hb) as (bb & _ & Hkb).
  destruct (rest_new _ _ Ha) as (ia & Ea & Hra). destruct (rest_new _ _ Hb) as (ib & Eb & Hrb).
  exists (umerge la lb), (mkMerge ia ib None). split; [by apply umerge_is|].
  assert (mstate a b (mkMerge ia ib None) la lb) as Hm by by exists la, lb.
  split; [unfold set_union; by rewrite Ea, Eb|]. split; [by apply union_hint_ok with a b|]. split.
  - unfold union_min. by destruct (union_next_ok _ _ _ _ _ Hm) as (? & ? & ? & -> & _).
  - intros n. by apply union_drive_ok.
Qed.
End SetProof.
