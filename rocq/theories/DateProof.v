(** examples/date_statistic.rs and examples/visit_depth.rs *)
From stdpp Require Import list sorting.
From Coq Require Import ZArith.
From Verif Require Import Base Slots BinSearch LeafNode InnerNode Store Tree Remove Iterators Augment BulkLoad History View
  SlotLemmas NodeLemmas Spec AugSpec SearchSpec Order Logical Descent InsertProof InvLemmas InsertTop
  RemoveLeaf RemoveInner RemoveProof RemoveTop Lookup RefProof AugProof ViewProof IterProof IntoProof HistProof HistTop AugTop
  QueryProof ShapeTop EdgeProof ExamplePrograms ExampleSpec.

Lemma date_lt x y : date_cmp x y = Lt <->
  (year x < year y \/ (year x = year y /\ (month x < month y \/ (month x = month y /\ day x < day y))))%N.
Proof.
  unfold date_cmp. destruct (N.compare_spec (year x) (year y)), (N.compare_spec (month x) (month y)),
    (N.compare_spec (day x) (day y)); split; intros; try done; try lia.
Qed.
Lemma date_eq x y : date_cmp x y = Eq <-> x = y.
Proof.
  unfold date_cmp. destruct x as [a b c], y as [a' b' c']. cbn [year month day]. split.
  - destruct (N.compare_spec a a'), (N.compare_spec b b'), (N.compare_spec c c'); try done. by subst.
  - intros [= -> -> ->]. by rewrite !N.compare_refl.
Qed.
Lemma date_sym x y : date_cmp y x = CompOpp (date_cmp x y).
Proof.
  unfold date_cmp. rewrite (N.compare_antisym (year x)), (N.compare_antisym (month x)), (N.compare_antisym (day x)).
  by destruct (N.compare (year x) (year y)), (N.compare (month x) (month y)), (N.compare (day x) (day y)).
Qed.
Global Instance date_laws : OrdLaws date.
Proof.
  split; unfold kcmp, date_key.
  - intros x. by apply date_eq.
  - apply date_sym.
  - intros x y z. rewrite !date_lt. lia.
  - intros x y z H%date_eq. by subst.
Qed.

Definition dle (x y : date) : Prop := x = y \/ date_cmp x y = Lt.

Section Dates.
Context {V : Type} {PF : Profile}.
Notation run := (list (date * V)).
Notation asc := (ascending (K:=date) (V:=V)).

(** ** Counting groups of consecutive dates *)
Record grouping (G : date -> date -> bool) : Prop := {
  g_refl : forall a, G a a = true;
  g_same : forall a b, G a b = true -> forall x, G a x = G b x;
  g_convex : forall a b c, dle a b -> dle b c -> G a c = true -> G a b = true;
}.
Lemma g_sym G a b : grouping G -> G a b = true -> G b a = true.
Proof. intros HG H. rewrite <- (g_same G HG a b H). apply HG. Qed.
Lemma g_convex' G a b c : grouping G -> dle a b -> dle b c -> G c a = true -> G c b = true.
Proof.
  intros HG H1 H2 H. rewrite (g_same G HG c a H). eapply g_convex; [done|done|done|]. by apply g_sym.
Qed.
Definition by_year (a x : date) : bool := in_year (year a) x.
Definition by_month (a x : date) : bool := in_month (year a) (month a) x.
Definition by_day (a x : date) : bool := on_day (year a) (month a) (day a) x.
Lemma by_year_spec a x : by_year a x = true <-> year x = year a.
Proof. unfold by_year, in_year. apply N.eqb_eq. Qed.
Lemma by_month_spec a x : by_month a x = true <-> year x = year a /\ month x = month a.
Proof. unfold by_month, in_month. rewrite andb_true_iff, !N.eqb_eq. done. Qed.
Lemma by_day_spec a x : by_day a x = true <-> year x = year a /\ month x = month a /\ day x = day a.
Proof. unfold by_day, on_day. rewrite !andb_true_iff, !N.eqb_eq. tauto. Qed.
Lemma dle_spec x y : dle x y <->
  (year x < year y \/ (year x = year y /\ (month x < month y \/ (month x = month y /\ day x <= day y))))%N.
Proof.
  unfold dle. rewrite date_lt. destruct x as [a b c], y as [a' b' c']. cbn [year month day]. split.
  - intros [[= -> -> ->]|H]; lia.
  - intros H. destruct (decide (a = a' /\ b = b' /\ c = c')) as [(-> & -> & ->)|Hn]; [by left|]. right. lia.
Qed.
Lemma by_year_grouping : grouping by_year.
Proof.
  split; intros *; rewrite ?dle_spec.
  - by apply by_year_spec.
  - intros H%by_year_spec x. unfold by_year. by rewrite H.
  - rewrite !by_year_spec. lia.
Qed.
Lemma by_month_grouping : grouping by_month.
Proof.
  split; intros *; rewrite ?dle_spec.
  - by apply by_month_spec.
  - intros [H1 H2]%by_month_spec x. unfold by_month. by rewrite H1, H2.
  - rewrite !by_month_spec. lia.
Qed.
Lemma by_day_grouping : grouping by_day.
Proof.
  split; intros *; rewrite ?dle_spec.
  - by apply by_day_spec.
  - intros (H1 & H2 & H3)%by_day_spec x. unfold by_day. by rewrite H1, H2, H3.
  - rewrite !by_day_spec. lia.
Qed.

Lemma count_app f (l1 l2 : run) : count_if f (l1 ++ l2) = count_if f l1 + count_if f l2.
Proof. unfold count_if. by rewrite List.filter_app, app_length. Qed.
Lemma count_none f (l : run) : (forall kv, kv ∈ l -> f (fst kv) = false) -> count_if f l = 0.
Proof.
  induction l as [|x l IH]; intros H; [done|]. unfold count_if. cbn [List.filter]. rewrite H by left. apply IH.
  intros kv Hin. apply H. by right.
Qed.
Lemma count_ext f g (l : run) : (forall x, f x = g x) -> count_if f l = count_if g l.
Proof. intros H. unfold count_if. f_equal. apply List.filter_ext. intros kv. apply H. Qed.

Lemma asc_app_le (l1 l2 : run) x y : asc (l1 ++ l2) -> x ∈ l1 -> y ∈ l2 -> dle (fst x) (fst y).
Proof.
  intros Ha Hx Hy. right. induction l1 as [|z l1 IH]; [by apply elem_of_nil in Hx|].
  inversion Ha as [|? ? Ha' Hz]; subst. apply elem_of_cons in Hx as [->|Hx]; [|by apply IH].
  rewrite Forall_forall in Hz. apply Hz. apply elem_of_app. by right.
Qed.
Lemma head_le (l : run) d x : asc l -> fst <$> head l = Some d -> x ∈ l -> dle d (fst x).
Proof.
  destruct l as [|y l]; [done|]. intros Ha [= <-] Hx. apply elem_of_cons in Hx as [->|Hx]; [by left|].
  apply (asc_app_le [y] l); [done|left|done].
Qed.
Lemma last_le (l : run) d x : asc l -> fst <$> list.last l = Some d -> x ∈ l -> dle (fst x) d.
Proof.
  destruct (list.last l) as [y|] eqn:E; [|done]. intros Ha [= <-] Hx. apply last_Some in E as (l' & ->).
  apply elem_of_app in Hx as [Hx|Hx]; [|apply elem_of_list_singleton in Hx as ->; by left].
  apply (asc_app_le l' [y]); [done|done|left].
Qed.
Lemma head_in (l : run) d : fst <$> head l = Some d -> exists x, x ∈ l /\ fst x = d.
Proof. destruct l as [|x l]; [done|]. intros [= <-]. exists x. split; [left|done]. Qed.
Lemma last_in (l : run) d : fst <$> list.last l = Some d -> exists x, x ∈ l /\ fst x = d.
Proof.
  destruct (list.last l) as [y|] eqn:E; [|done]. intros [= <-]. apply last_Some in E as (l' & ->). exists y.
  split; [|done]. apply elem_of_app. right. left.
Qed.

Section Group.
Context (G : date -> date -> bool) (HG : grouping G).
Lemma count_first (l1 l2 : run) d1 d2 : asc (l1 ++ l2) -> fst <$> head l1 = Some d1 -> fst <$> head l2 = Some d2 ->
  count_if (G d1) (l1 ++ l2) = count_if (G d1) l1 + if G d1 d2 then count_if (G d2) l2 else 0.
Proof.
  intros Ha H1 H2. rewrite count_app. f_equal. destruct (G d1 d2) eqn:E.
  - apply count_ext. by apply (g_same G HG).
  - apply count_none. intros y Hy. apply not_true_iff_false. intros H. apply not_true_iff_false in E. apply E.
    destruct (head_in _ _ H1) as (x1 & Hx1 & <-). destruct (head_in _ _ H2) as (x2 & Hx2 & <-).
    eapply (g_convex G HG); [by eapply asc_app_le| |exact H]. eapply head_le; [|done|done].
    by apply asc_app in Ha as [_ ?].
Qed.
Lemma count_last (l1 l2 : run) d1 d2 : asc (l1 ++ l2) -> fst <$> list.last l1 = Some d1 -> fst <$> list.last l2 = Some d2 ->
  count_if (G d2) (l1 ++ l2) = (if G d1 d2 then count_if (G d1) l1 else 0) + count_if (G d2) l2.
Proof.
  intros Ha H1 H2. rewrite count_app. f_equal. destruct (G d1 d2) eqn:E.
  - apply count_ext. intros x. symmetry. by apply (g_same G HG).
  - apply count_none. intros y Hy. apply not_true_iff_false. intros H. apply not_true_iff_false in E. apply E.
    destruct (last_in _ _ H1) as (x1 & Hx1 & <-). destruct (last_in _ _ H2) as (x2 & Hx2 & <-).
    apply (g_sym G _ _ HG). eapply (g_convex' G _ _ _ HG); [| |exact H]; [|by eapply asc_app_le].
    eapply last_le; [|done|done]. by apply asc_app in Ha as [? _].
Qed.
End Group.

(** ** The statistic of a run *)
Lemma compare_cases x y :
  match compare_dates x y with
  | SameDay => by_year x y = true /\ by_month x y = true /\ by_day x y = true /\ x = y
  | SameMonth => by_year x y = true /\ by_month x y = true /\ by_day x y = false
  | SameYear => by_year x y = true /\ by_month x y = false /\ by_day x y = false
  | DifferentYear => by_year x y = false /\ by_month x y = false /\ by_day x y = false
  end.
Proof.
  unfold compare_dates, by_year, by_month, by_day, in_year, in_month, on_day.
  rewrite (N.eqb_sym (year y)), (N.eqb_sym (month y)), (N.eqb_sym (day y)).
  destruct (N.eqb_spec (year x) (year y)) as [E1|], (N.eqb_spec (month x) (month y)) as [E2|], (N.eqb_spec (day x) (day y)) as [E3|];
    try done. split_and!; try done. destruct x, y. simpl in *. by subst.
Qed.
Lemma about_groups d e (l : run) : entry_about d e l <->
  e_date e = d /\ c_year (e_counter e) = count_if (by_year d) l /\ c_month (e_counter e) = count_if (by_month d) l /\
  c_day (e_counter e) = count_if (by_day d) l.
Proof. done. Qed.
Lemma merge_min (l1 l2 : run) d1 d2 e1 e2 : asc (l1 ++ l2) -> fst <$> head l1 = Some d1 -> fst <$> head l2 = Some d2 ->
  entry_about d1 e1 l1 -> entry_about d2 e2 l2 -> entry_about d1 (min_inner e1 e2) (l1 ++ l2).
Proof.
  intros Ha H1 H2 E1 E2. apply (proj1 (about_groups _ _ _)) in E1 as (<- & Y1 & M1 & D1), E2 as (<- & Y2 & M2 & D2).
  apply (proj2 (about_groups _ _ _)).
  rewrite (count_first _ by_year_grouping _ _ _ _ Ha H1 H2), (count_first _ by_month_grouping _ _ _ _ Ha H1 H2),
    (count_first _ by_day_grouping _ _ _ _ Ha H1 H2), <- Y1, <- Y2, <- M1, <- M2, <- D1, <- D2.
  pose proof (compare_cases (e_date e1) (e_date e2)) as C. unfold min_inner.
  destruct (compare_dates _ _); [destruct C as (-> & -> & -> & _)|destruct C as (-> & -> & ->)..]; cbn [e_date e_counter c_year c_month c_day];
    split_and!; try done; lia.
Qed.
Lemma merge_max (l1 l2 : run) d1 d2 e1 e2 : asc (l1 ++ l2) -> fst <$> list.last l1 = Some d1 -> fst <$> list.last l2 = Some d2 ->
  entry_about d1 e1 l1 -> entry_about d2 e2 l2 -> entry_about d2 (max_inner e1 e2) (l1 ++ l2).
Proof.
  intros Ha H1 H2 E1 E2. apply (proj1 (about_groups _ _ _)) in E1 as (<- & Y1 & M1 & D1), E2 as (<- & Y2 & M2 & D2).
  apply (proj2 (about_groups _ _ _)).
  rewrite (count_last _ by_year_grouping _ _ _ _ Ha H1 H2), (count_last _ by_month_grouping _ _ _ _ Ha H1 H2),
    (count_last _ by_day_grouping _ _ _ _ Ha H1 H2), <- Y1, <- Y2, <- M1, <- M2, <- D1, <- D2.
  pose proof (compare_cases (e_date e1) (e_date e2)) as C. unfold max_inner.
  destruct (compare_dates _ _); [destruct C as (-> & -> & -> & Ed)|destruct C as (-> & -> & ->)..]; cbn [e_date e_counter c_year c_month c_day];
    split_and!; try done; lia.
Qed.
Definition one (k : date) : date_stat := let e := mkEntry k (mkCounter 1 1 1) in mkStat e e.
Lemma one_about k (v : V) : stat_about (one k) [(k, v)].
Proof.
  exists k, k. split; [done|]. split; [done|].
  assert (entry_about k (mkEntry k (mkCounter 1 1 1)) [(k, v)]) as H; [|done].
  apply (proj2 (about_groups _ _ _)). unfold count_if. cbn [List.filter fst].
  rewrite (g_refl _ by_year_grouping), (g_refl _ by_month_grouping), (g_refl _ by_day_grouping). done.
Qed.
Lemma stat_nonempty s (l : run) : stat_about s l -> l <> [].
Proof. intros (d & ? & H & _) ->. done. Qed.
Lemma head_app_ne (l1 l2 : run) : l1 <> [] -> head (l1 ++ l2) = head l1.
Proof. by destruct l1. Qed.
Lemma last_app_ne (l1 l2 : run) : l2 <> [] -> list.last (l1 ++ l2) = list.last l2.
Proof. intros H. rewrite last_app. destruct (list.last l2) eqn:E; [done|]. by apply last_None in E. Qed.
Lemma merge_stat (l1 l2 : run) s1 s2 : asc (l1 ++ l2) -> stat_about s1 l1 -> stat_about s2 l2 ->
  stat_about (mkStat (min_inner (s_min s1) (s_min s2)) (max_inner (s_max s1) (s_max s2))) (l1 ++ l2).
Proof.
  intros Ha S1 S2. pose proof (stat_nonempty _ _ S1) as N1. pose proof (stat_nonempty _ _ S2) as N2.
  destruct S1 as (f1 & t1 & F1 & T1 & A1 & B1), S2 as (f2 & t2 & F2 & T2 & A2 & B2).
  exists f1, t2. rewrite head_app_ne, last_app_ne by done. split; [done|]. split; [done|]. cbn [s_min s_max].
  split; [by eapply merge_min|by eapply merge_max].
Qed.
Lemma fold_stat aus (ls : list run) : forall s l0, stat_about s l0 -> Forall2 stat_about aus ls -> asc (l0 ++ concat ls) ->
  stat_about (mkStat (foldl min_inner (s_min s) (map s_min aus)) (foldl max_inner (s_max s) (map s_max aus))) (l0 ++ concat ls).
Proof.
  revert ls. induction aus as [|a aus IH]; intros ls s l0 Hs H2 Ha; inversion H2 as [|? l ? ls' Hl H2']; subst.
  - simpl. rewrite app_nil_r. by destruct s.
  - cbn [concat map foldl] in *. rewrite app_assoc in *. 
    exact (IH _ _ _ (merge_stat _ _ _ _ (proj1 (asc_app _ _ Ha)) Hs Hl) H2' Ha).
Qed.
Lemma min_leaf_one e k : min_leaf e k = min_inner e (s_min (one k)).
Proof. done. Qed.
Lemma max_leaf_one e k : max_leaf e k = max_inner e (s_max (one k)).
Proof. done. Qed.

Local Existing Instance date_aug.
Definition stat_of (a : option date_stat) (l : run) : Prop := l <> [] -> exists s, a = Some s /\ stat_about s l.
Lemma stat_summary : summary_ok stat_of.
Proof.
  split.
  - intros [|[k v] l] Ha _ Hne; [done|]. cbn [from_leaf date_aug map fst stat_from_leaf]. eexists. split; [done|].
    assert (Forall2 stat_about (map one (map fst l)) (map (fun kv => [kv]) l)) as H2.
    { clear. induction l as [|[k v] l IH]; constructor; [apply one_about|done]. }
    assert (concat (map (fun kv => [kv]) l) = l) as Ec.
    { clear. induction l as [|x l IH]; [done|]. simpl. by rewrite IH. }
    pose proof (fold_stat _ _ (one k) [(k, v)] (one_about k v) H2) as H. rewrite Ec in H. specialize (H Ha).
    rewrite !map_map in H. rewrite (foldl_fmap min_inner _ l (fun x => s_min (one (fst x)))) in H.
    rewrite (foldl_fmap max_inner _ l (fun x => s_max (one (fst x)))) in H.
    change (map fst l) with (fst <$> l). rewrite !foldl_fmap. exact H.
  - intros ks aus ls Ha Hls Hne H2 _. cbn [from_inner date_aug]. unfold stat_from_inner.
    assert (exists ss, aus = map Some ss /\ Forall2 stat_about ss ls) as (ss & -> & Hs).
    { clear -H2 Hne. induction H2 as [|a l aus ls Hl _ IH]; [by exists []|]. apply Forall_cons in Hne as [Hn Hne].
      destruct (Hl Hn) as (s & -> & Hs), (IH Hne) as (ss & -> & Hss). exists (s :: ss). split; [done|]. by constructor. }
    assert (mapM id (map Some ss) = Some ss) as ->.
    { clear. induction ss as [|s ss IH]; [done|]. cbn [map]. change (mapM id (Some s :: map Some ss)) with
        (y ← id (Some s); k ← mapM id (map Some ss); mret (y :: k)). rewrite IH. done. }
    simpl. inversion Hs as [|s l ss' ls' Hl Hs']; subst; [done|]. eexists. split; [done|]. cbn [concat]. by apply fold_stat.
  - by intros [].
Qed.
Lemma date_key_aug : key_aug (K:=date) (V:=V) (A:=option date_stat).
Proof. done. Qed.

(** ** Counting the entries of a year *)
Lemma year_leaf_ok y c (l : run) : year_visit_leaf y c (map fst l) = c + count_if (in_year y) l.
Proof.
  revert c. induction l as [|[k v] l IH]; intros c; [unfold count_if; simpl; lia|]. cbn [map fst year_visit_leaf].
  rewrite IH. unfold count_if. cbn [List.filter fst]. unfold in_year. destruct (N.eqb (year k) y); simpl; lia.
Qed.
Lemma years_le x y : dle x y -> (year x <= year y)%N.
Proof. rewrite dle_spec. lia. Qed.
Lemma year_inner_ok y (ls : list run) : forall c i aus, asc (concat ls) -> Forall2 stat_about aus ls ->
  match year_visit_inner y c i (map Some aus) with
  | (c', GoDown j) => exists l, i <= j /\ ls !! (j - i) = Some l /\
      c' + count_if (in_year y) l = c + count_if (in_year y) (concat ls)
  | (_, Complete (Some n)) => n = c + count_if (in_year y) (concat ls)
  | _ => False
  end.
Proof.
  induction ls as [|l ls IH]; intros c i aus Ha H2; inversion H2 as [|a ? aus' ? Hs H2']; subst; [unfold count_if; simpl; lia|].
  cbn [map year_visit_inner concat] in *. destruct Hs as (f & t & F & T & (Ef & Yf & _) & (Et & Yt & _)).
  rewrite Ef, Et, Yf, Yt. rewrite count_app.
  pose proof (proj1 (asc_app _ _ Ha)) as Hal. pose proof (proj2 (asc_app _ _ Ha)) as Has.
  assert (forall kv, kv ∈ l -> (year f <= year (fst kv) <= year t)%N) as Hl.
  { intros kv Hin. split; apply years_le; [by apply (head_le l)|by apply (last_le l)]. }
  assert (forall kv, kv ∈ concat ls -> (year t <= year (fst kv))%N) as Hr.
  { intros kv Hin. apply years_le. destruct (last_in _ _ T) as (x & Hx & <-). by apply (asc_app_le l (concat ls)). }
  assert ((year t < y)%N \/ (y < year f)%N -> count_if (in_year y) l = 0) as Z1.
  { intros Hy. apply count_none. intros kv Hin. unfold in_year. apply N.eqb_neq. specialize (Hl kv Hin). lia. }
  assert ((y < year t)%N -> count_if (in_year y) (concat ls) = 0) as Z2.
  { intros Hy. apply count_none. intros kv Hin. unfold in_year. apply N.eqb_neq. specialize (Hr kv Hin). lia. }
  assert (year f <= year t)%N as Hft.
  { destruct (head_in _ _ F) as (x & Hx & <-). by apply Hl. }
  assert (forall c', match year_visit_inner y c' (S i) (map Some aus') with
    | (c2, GoDown j) => exists l0, i <= j /\ (l :: ls) !! (j - i) = Some l0 /\
        c2 + count_if (in_year y) l0 = c' + count_if (in_year y) (concat ls)
    | (_, Complete (Some n)) => n = c' + count_if (in_year y) (concat ls)
    | _ => False end) as IH'.
  { intros c'. specialize (IH c' (S i) aus' Has H2'). destruct (year_visit_inner _ _ _ _) as [c2 [j| |[n|]]]; try done.
    destruct IH as (l0 & Hj & El & En). exists l0. split; [lia|]. split; [|done].
    replace (j - i) with (S (j - S i)) by lia. done. }
  destruct (N.compare_spec (year f) y) as [E1|E1|E1].
  - destruct (N.compare_spec (year t) y) as [E2|E2|E2]; [|lia|].
    + specialize (IH' (c + count_if (in_year (year t)) l)). rewrite E2 in *.
      destruct (year_visit_inner _ _ _ _) as [c2 [j| |[n|]]]; try done; [|lia].
      destruct IH' as (l0 & Hj & El & En). exists l0. split; [done|]. split; [done|lia].
    + rewrite Z2 by done. rewrite E1. lia.
  - destruct (N.compare_spec (year t) y) as [E2|E2|E2].
    + specialize (IH' (c + count_if (in_year (year t)) l)). rewrite E2 in *.
      destruct (year_visit_inner _ _ _ _) as [c2 [j| |[n|]]]; try done; [|lia].
      destruct IH' as (l0 & Hj & El & En). exists l0. split; [done|]. split; [done|lia].
    + specialize (IH' c). rewrite Z1 by lia. exact IH'.
    + exists l. rewrite Nat.sub_diag, Z2 by done. split; [lia|]. split; [done|lia].
  - rewrite Z1, Z2 by lia. lia.
Qed.
Lemma year_rules y : visit_rules (year_visitor y) stat_of (fun c l o => o = Some (Some (c + count_if (in_year y) l))).
Proof.
  split.
  - intros c l _ _. cbn [visit_leaf year_visitor]. by rewrite year_leaf_ok.
  - intros c ks aus ls [Ha Hne H2 _ _]. cbn [visit_inner year_visitor].
    assert (exists ss, aus = map Some ss /\ Forall2 stat_about ss ls) as (ss & -> & Hs).
    { clear -H2 Hne. induction H2 as [|a l aus ls Hl _ IH]; [by exists []|]. apply Forall_cons in Hne as [Hn Hne].
      destruct (Hl Hn) as (s & -> & Hs), (IH Hne) as (ss & -> & Hss). exists (s :: ss). split; [done|]. by constructor. }
    pose proof (year_inner_ok y ls c 0 ss Ha Hs) as H. destruct (year_visit_inner _ _ _ _) as [c2 [j| |[n|]]]; try done.
    + destruct H as (l & _ & El & En). rewrite Nat.sub_0_r in El. exists l. split; [done|]. intros o ->. by rewrite En.
    + by rewrite H.
Qed.

Lemma date_top b T (l : run) : reachable (A:=option date_stat) b T l ->
  (l <> [] -> exists s, t_aug T = Some s /\ stat_about s l) /\
  forall y, descend_visit T (year_visitor y) 0 = Ok (Some (Some (count_if (in_year y) l))).
Proof.
  intros (ops & rs & Hl & E & <-). split.
  - destruct (exec_inv_any True b ops rs T Hl E) as (ri & h & t & Hlow & Hri & HI & Hf & _); [done|].
    rewrite <- Hf. assert (1 <= low b) as Hb by lia. exact (root_summary _ ri Hb _ stat_summary T h t HI).
  - intros y. destruct (visit_rules_top _ stat_summary _ _ (year_rules y) b ops rs T 0 Hl E) as (o & Ev & Ho); [done|].
    by rewrite Ev, Ho.
Qed.

Lemma date_panics b T (l : run) p : reachable (A:=option date_stat) b T l -> probe_ok p -> removal_ok (A:=option date_stat) b l ->
  exists T', remove T p = Ok (spec_get p l, T') /\ reachable b T' (spec_remove p l) /\
    (spec_get p l <> None -> (t_aug T' = None <-> length l = 1)).
Proof.
  intros Hr Hp Hrm. destruct (reachable_step b T l (ORemove p) Hr Hp (fun _ => Hrm)) as (T' & E & Hr').
  { cbn [spec_step snd]. pose proof (spec_remove_length p l). pose proof (reachable_size _ _ _ Hr). lia. }
  simpl in E, Hr'. destruct (remove T p) as [[v T1]| | | |] eqn:Er; [|done..]. rewrite obind_Ok in E. injection E as -> ->.
  exists T'. split; [done|]. split; [done|]. intros Hv. destruct (spec_get p l) as [v|] eqn:Eg; [|done].
  assert (length l = S (length (spec_remove p l))) as Hl.
  { clear -Eg. induction l as [|[k w] l IH]; [done|]. simpl in *. destruct (p k); [done|..]; simpl; f_equal; by apply IH. }
  destruct (spec_remove p l) as [|kv l'] eqn:El.
  - split; [by rewrite Hl|]. intros _. by rewrite (emptied_aug b T p v T' Er Hr').
  - destruct (date_top b T' _ Hr') as [H _]. destruct H as (s & Es & _); [done|]. rewrite Es, Hl. simpl. split; [done|lia].
Qed.
End Dates.

(** ** visit_depth.rs *)
Section Depth.
Context {K V A : Type} {KO : KeyOps K} {PF : Profile} {OL : OrdLaws K} {AO : AugOps K V A}.

Lemma depth_loop SYNC (s : store K V A) rl ri m b h t d fuel :
  irep SYNC (inners s) h t -> nshape rl ri m b h t -> Forall (lvok (leaves s)) (leaf_seq t) -> h <= fuel ->
  descend_visit_loop fuel s (nid t) depth_visitor d = Ok (Some (S (d + h))).
Proof.
  revert m b t d fuel. induction h as [|h IH]; intros m b [id kvs|id ks ch] d fuel Hi Hn Hl Hf; try done.
  - apply Forall_cons in Hl as [(p & n & El & Hz) _]. simpl in El, Hz.
    destruct fuel; cbn [descend_visit_loop nid]; unfold get_leaf; rewrite El, obind_Ok, leaf_keys_mk by done;
      rewrite obind_Ok, leaf_values_mk by done; rewrite Nat.add_0_r; done.
  - destruct fuel as [|fuel]; [lia|]. destruct Hi as [Hnr Hi]. destruct Hn as (Hk & Hc & Hs).
    destruct (node_rep_fits _ _ _ _ _ Hnr (proj2 Hk) Hc) as (aus & E & Hfit & _).
    cbn [descend_visit_loop nid]. unfold get_inner. rewrite E, obind_Ok, inner_keys_mk by done.
    rewrite obind_Ok, inner_augmentations_mk by done. rewrite obind_Ok. cbn [visit_inner depth_visitor].
    cbn [i_size mk_inner]. rewrite decide_False by lia. destruct ch as [|c ch]; [done|].
    rewrite (inner_child_id_mk _ _ _ _ (nid c)) by done. rewrite obind_Ok.
    apply Forall_cons in Hi as [Hi _]. replace (d + S h) with (S d + h) by lia.
    apply (chs_app _ _ [] c ch) in Hs as (_ & Hs & _). eapply IH; [done|by apply shape_nshape| |lia].
    change (leaf_seq (TNode id ks (c :: ch))) with (leaf_seq c ++ concat (map leaf_seq ch)) in Hl.
    by apply Forall_app in Hl as [Hl _].
Qed.
Lemma occupied_le top lo h (w : view K V) : occupied top lo h w -> (N.of_nat (length (view_entries w)) <= 64 * 65 ^ N.of_nat h)%N.
Proof.
  revert top w. induction h as [|h IH]; intros top [id kvs|id ks ch] Ho; try done.
  - simpl in *. lia.
  - destruct Ho as (Hk & Hl & Hc). cbn [view_entries].
    assert (N.of_nat (length (concat (map view_entries ch))) <= N.of_nat (length ch) * (64 * 65 ^ N.of_nat h))%N as Hle.
    { clear Hl. induction Hc as [|c ch Hc _ IHc]; [done|]. cbn [map concat length]. rewrite app_length. specialize (IH _ _ Hc). lia. }
    rewrite Nnat.Nat2N.inj_succ, N.pow_succ_r'. assert (N.of_nat (length ch) <= 65)%N by lia. nia.
Qed.
Lemma depth_top b (T : tree K V A) l w : reachable b T l -> tree_shows T w ->
  exists h, descend_visit T depth_visitor 0 = Ok (Some (S h)) /\ occupied 0 0 h w /\
    (N.of_nat (length l) <= 64 * 65 ^ N.of_nat h)%N /\
    (forall h', h = S h' -> (16 * 17 ^ N.of_nat h' <= N.of_nat (length l))%N).
Proof.
  intros Hr Hw. destruct (reachable_any False b T l Hr) as (ri & h & t & Hlow & Hri & HI & Hf & Ha & Hof & Hh); [done|].
  destruct (inv_shows (low b) ri False T h t HI) as (H1 & H2 & H3 & H4).
  assert (w = of_tr t) as -> by (by eapply tree_shows_fun). exists h.
  assert (occupied 0 0 h (of_tr t)) as Ho.
  { specialize (H4 0 ltac:(lia) ltac:(lia) ltac:(lia)). destruct h as [|h]; [done|]. destruct (of_tr t); [done|]. simpl in *.
    destruct H4 as (? & ? & ?). split_and!; try done; lia. }
  split; [|split; [done|split]].
  - unfold descend_visit. rewrite (inv_root _ _ _ _ _ _ HI). 
    eapply (depth_loop _ _ _ _ _ _ h t 0); [apply HI|apply HI|by eapply inv_lvok|]. apply (fuel_inv (low b) ri False T h t HI).
  - rewrite <- Hf, <- H2. by eapply occupied_le.
  - intros h' ->. pose proof (inv_shape _ _ _ _ _ _ HI) as Hs. rewrite <- Hf. by apply (root_size _ _ h' t Hs).
Qed.
End Depth.
