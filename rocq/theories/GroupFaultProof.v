(** [GroupCount] counts exactly what [GroupFault.v] says. *)
From stdpp Require Import list sorting.
From Verif Require Import Base Slots BinSearch LeafNode InnerNode Store Tree Remove Iterators Augment BulkLoad History View
  SlotLemmas NodeLemmas Spec AugSpec GroupSpec GroupFault Order Logical Descent InsertProof InvLemmas InsertTop
  RemoveLeaf RemoveInner RemoveProof RemoveTop Lookup RefProof AugProof ViewProof IterProof IntoProof HistProof HistTop AugTop CountProof
  GroupProof ShapeTop.

Section GroupFaultProof.
Context {K V G : Type} {KO : KeyOps K} {PF : Profile} {OL : OrdLaws K} {GO : KeyOps G} {GL : OrdLaws G} {FR : FromRef K G}
  {MG : MonoGroup K G}.
Notation entry := (K * V)%type.
Implicit Types (l leaf : list entry) (ls : list (list entry)) (x y z : entry) (g : G).
Notation gof := (group_of (V:=V)).
Notation size := (group_size (V:=V)).
Notation number := (group_number (V:=V)).

Definition cnt g ls : nat := length (counted g ls).

Lemma counted_app g ls1 ls2 : counted g (ls1 ++ ls2) = counted g ls1 ++ counted g ls2.
Proof. unfold counted. by rewrite map_app, concat_app. Qed.
Lemma cnt_app g ls1 ls2 : cnt g (ls1 ++ ls2) = cnt g ls1 + cnt g ls2.
Proof. unfold cnt. by rewrite counted_app, app_length. Qed.
Lemma cnt_nil g : cnt g [] = 0.
Proof. done. Qed.
Lemma counted_in_length g leaf : length (counted_in g leaf) = size g leaf + ghosts g leaf.
Proof. unfold counted_in. by rewrite app_length, map_length, repeat_length. Qed.
Lemma cnt_cons g leaf ls : cnt g (leaf :: ls) = size g leaf + ghosts g leaf + cnt g ls.
Proof. unfold cnt, counted. cbn [map concat]. by rewrite app_length, counted_in_length. Qed.
Lemma cnt_one g leaf : cnt g [leaf] = size g leaf + ghosts g leaf.
Proof. rewrite cnt_cons, cnt_nil. lia. Qed.

Lemma in_group_eq g g' x : kcmp g g' = Eq -> in_group g x = in_group g' x.
Proof. intros E. unfold in_group. by rewrite (kcmp_eq_r g g'). Qed.
Lemma filter_eq {X} (f f' : X -> bool) (l : list X) : (forall x : X, f x = f' x) -> List.filter f l = List.filter f' l.
Proof. intros H. induction l as [|x l IH]; [done|]. simpl. by rewrite H, IH. Qed.
Lemma counted_eq g g' ls : kcmp g g' = Eq -> counted g ls = counted g' ls.
Proof.
  intros E. unfold counted. f_equal. apply map_ext. intros leaf. unfold counted_in. f_equal.
  - f_equal. apply filter_eq. intros x. by apply in_group_eq.
  - f_equal. unfold ghosts. destruct leaf as [|f leaf]; [done|]. destruct (list.last (f :: leaf)) as [z|]; [|done].
    rewrite !(in_group_eq g g') by done.
    assert (between g (f :: leaf) = between g' (f :: leaf)) as ->; [|done].
    unfold between. apply filter_eq. intros x. by rewrite (in_group_eq g g').
Qed.
Lemma cnt_eq g g' ls : kcmp g g' = Eq -> cnt g ls = cnt g' ls.
Proof. intros E. unfold cnt. by rewrite (counted_eq g g'). Qed.

(** A leaf that does not end with the group is counted right. *)
Lemma ghosts_off g leaf : (forall l z, leaf = l ++ [z] -> in_group g z = false) -> ghosts g leaf = 0.
Proof.
  intros H. unfold ghosts. destruct leaf as [|f leaf]; [done|]. destruct (list.last (f :: leaf)) as [z|] eqn:E; [|done].
  apply last_Some in E as [l E]. by rewrite (H l z E).
Qed.
Lemma ghosts_absent g leaf : size g leaf = 0 -> ghosts g leaf = 0.
Proof.
  intros H. apply ghosts_off. intros l z ->. rewrite size_app, size_cons in H. destruct (in_group g z); [lia|done].
Qed.
Lemma ghosts_same g leaf : Forall (fun x => kcmp (gof x) g = Eq) leaf -> ghosts g leaf = 0.
Proof.
  intros H. unfold ghosts. destruct leaf as [|f leaf]; [done|]. destruct (list.last (f :: leaf)); [|done].
  apply Forall_cons in H as [H _]. apply in_group_true in H. rewrite H. by rewrite andb_false_r.
Qed.
Lemma cnt_absent g ls : size g (concat ls) = 0 -> cnt g ls = 0.
Proof.
  induction ls as [|leaf ls IH]; [done|]. cbn [concat]. rewrite size_app, cnt_cons. intros H.
  rewrite ghosts_absent, IH by lia. lia.
Qed.
Lemma cnt_all g ls : Forall (fun x => kcmp (gof x) g = Eq) (concat ls) -> cnt g ls = length (concat ls).
Proof.
  induction ls as [|leaf ls IH]; [done|]. cbn [concat]. intros H. apply Forall_app in H as [H1 H2].
  rewrite cnt_cons, ghosts_same, IH, size_all, app_length by done. lia.
Qed.

(** ** Summaries *)
Definition haunt (a : group_count G) ls : Prop :=
  match a with GcMultiple _ mx _ => mx.2 = cnt mx.1 ls | _ => True end.

Lemma haunt_merge a1 a2 ls1 ls2 : gsorted (concat (ls1 ++ ls2)) ->
  summ a1 (concat ls1) -> summ a2 (concat ls2) -> haunt a1 ls1 -> haunt a2 ls2 -> haunt (gc_merge a1 a2) (ls1 ++ ls2).
Proof.
  rewrite concat_app. intros Hs H1 H2 C1 C2.
  assert (forall g, size g (concat ls1) = 0 -> cnt g (ls1 ++ ls2) = cnt g ls2) as Hr.
  { intros g E. rewrite cnt_app, (cnt_absent g ls1) by done. done. }
  assert (forall g, size g (concat ls2) = 0 -> cnt g (ls1 ++ ls2) = cnt g ls1) as Hl.
  { intros g E. rewrite cnt_app, (cnt_absent g ls2) by done. lia. }
  destruct a1 as [|g1 c1|mn1 mx1 n1].
  - simpl in H1. cbn [gc_merge]. destruct a2 as [|g2 c2|mn2 mx2 n2]; try done. simpl in C2 |- *. rewrite C2, Hr by (by rewrite H1). done.
  - destruct H1 as (Hn1 & F1 & ->). pose proof (one_last _ _ Hn1 F1) as L1.
    destruct a2 as [|g2 c2|mn2 mx2 n2]; [done| |].
    + destruct H2 as (Hn2 & F2 & ->). pose proof (one_first _ _ Hn2 F2) as L2. pose proof (meet_ok _ _ _ _ Hs L1 L2) as M.
      cbn [gc_merge]. destruct (group_eqb g1 g2) eqn:E; [done|]. cbn [haunt fst snd].
      assert (kcmp g1 g2 = Lt) as Hlt by (apply eqb_false_lt; [done|apply M]).
      rewrite Hr, cnt_all; [done|done|]. by apply (mt_size_l _ _ _ _ M).
    + destruct H2 as (Ff & Fl & Hlt & _). pose proof (meet_ok _ _ _ _ Hs L1 Ff) as M.
      assert (kcmp g1 mx2.1 = Lt) as Hlt' by (eapply le_lt_trans; [apply M|done]).
      cbn [gc_merge]. destruct (group_eqb g1 mn2.1); cbn [haunt fst snd] in *; rewrite C2, Hr; try done; by apply (mt_size_l _ _ _ _ M).
  - destruct H1 as (Ff1 & Fl1 & Hlt1 & _). cbn [haunt] in C1.
    destruct a2 as [|g2 c2|mn2 mx2 n2].
    + simpl in H2. cbn [gc_merge haunt]. rewrite C1, Hl by (by rewrite H2). done.
    + destruct H2 as (Hn2 & F2 & ->). pose proof (one_first _ _ Hn2 F2) as L2. pose proof (meet_ok _ _ _ _ Hs Fl1 L2) as M.
      cbn [gc_merge]. destruct (group_eqb g2 mx1.1) eqn:E; cbn [haunt fst snd].
      * apply eqb_true in E. rewrite cnt_app, C1. f_equal. rewrite <- (cnt_eq g2 mx1.1), cnt_all by done. done.
      * assert (kcmp mx1.1 g2 = Lt) as Hlt2 by (apply eqb_false_lt; [by rewrite eqb_sym|apply M]).
        rewrite Hr, cnt_all; [done|done|]. by apply (mt_size_l _ _ _ _ M).
    + destruct H2 as (Ff2 & Fl2 & Hlt2 & _). cbn [haunt] in C2. pose proof (meet_ok _ _ _ _ Hs Fl1 Ff2) as M.
      cbn [gc_merge haunt fst snd]. rewrite C2, Hr; [done|]. apply (mt_size_l _ _ _ _ M). eapply le_lt_trans; [apply M|done].
Qed.

Lemma haunt_fold (aus : list (group_count G)) (lss : list (list (list entry))) acc pre :
  gsorted (concat (pre ++ concat lss)) -> summ acc (concat pre) -> haunt acc pre ->
  Forall2 (fun a ls => summ a (concat ls) /\ haunt a ls) aus lss ->
  haunt (fold_left gc_merge aus acc) (pre ++ concat lss).
Proof.
  intros Hs Ha Hc Hf. revert acc pre Hs Ha Hc. induction Hf as [|a ls aus lss [Hal Hac] Hf IH]; intros acc pre Hs Ha Hc; simpl.
  - by rewrite app_nil_r.
  - simpl in Hs. rewrite app_assoc in Hs |- *.
    assert (gsorted (concat (pre ++ ls))) as Hs'. { rewrite concat_app in Hs. by apply gsorted_app in Hs as (Hs & _). }
    apply IH; [done| |by apply haunt_merge].
    rewrite concat_app in Hs' |- *. by apply summ_merge.
Qed.

(** ** Leaves *)
Lemma split_low g l : gsorted l -> Forall (fun x => kcmp g (gof x) <> Gt) l ->
  exists a b, l = a ++ b /\ Forall (fun x => kcmp (gof x) g = Eq) a /\ Forall (fun x => kcmp g (gof x) = Lt) b.
Proof.
  induction l as [|x l IH]; intros Hs Hl; [by exists [], []|].
  apply gsorted_cons in Hs as [Hs Hx]. apply Forall_cons in Hl as [Hx0 Hl].
  destruct (kcmp g (gof x)) eqn:E; [| |done].
  - destruct (IH Hs Hl) as (a & b & -> & H1 & H2). exists (x :: a), b. split; [done|]. split; [|done].
    constructor; [by apply kcmp_eq_sym|done].
  - exists [], (x :: l). split; [done|]. split; [done|]. constructor; [done|]. eapply Forall_impl; [exact Hx|]. simpl. intros y Hy.
    by eapply lt_le_trans.
Qed.
Lemma split_high g l : gsorted l -> Forall (fun x => kcmp (gof x) g <> Gt) l ->
  exists a b, l = a ++ b /\ Forall (fun x => kcmp (gof x) g = Lt) a /\ Forall (fun x => kcmp (gof x) g = Eq) b.
Proof.
  induction l as [|x l IH]; intros Hs Hl; [by exists [], []|].
  apply gsorted_cons in Hs as [Hs Hx]. apply Forall_cons in Hl as [Hx0 Hl].
  destruct (kcmp (gof x) g) eqn:E; [| |done].
  - exists [], (x :: l). split; [done|]. split; [done|]. constructor; [done|]. rewrite Forall_forall in Hx, Hl |- *.
    intros y Hy. apply le_antisym; [by apply Hl|]. rewrite <- (ord_eq (gof x) g) by done. by apply Hx.
  - destruct (IH Hs Hl) as (a & b & -> & H1 & H2). exists (x :: a), b. split; [done|]. split; [by constructor|done].
Qed.

Lemma filter_all {X} (f : X -> bool) (l : list X) : Forall (fun x : X => f x = true) l -> List.filter f l = l.
Proof. induction 1 as [|x l H _ IH]; [done|]. simpl. by rewrite H, IH. Qed.
Lemma filter_none {X} (f : X -> bool) (l : list X) : Forall (fun x : X => f x = false) l -> List.filter f l = [].
Proof. induction 1 as [|x l H _ IH]; [done|]. simpl. by rewrite H. Qed.

Lemma between_ok g0 g l : gsorted l -> first_is l g0 -> last_is l g -> kcmp g0 g = Lt ->
  length l = size g0 l + size g l + length (between g l) /\ number l = 2 + number (between g l).
Proof.
  intros Hs Hf Hl Hlt. destruct (split_low g0 l Hs (gs_first_le _ _ Hs Hf)) as (a & b & El & Ha & Hb).
  assert (gsorted b) as Hsb by (rewrite El in Hs; by apply gsorted_app in Hs as (_ & Hs & _)).
  pose proof (gs_last_ge _ _ Hs Hl) as Hle. rewrite El in Hle. apply Forall_app in Hle as [_ Hle].
  destruct (split_high g b Hsb Hle) as (m & z & -> & Hm & Hz).
  apply Forall_app in Hb as [Hmb Hzb].
  assert (a <> []) as Hna.
  { intros ->. destruct Hf as (x & l' & -> & Ex). cbn [app] in El. apply kcmp_eq_sym in Ex. destruct m as [|y m].
    - destruct z as [|y z]; [done|]. injection El as -> _. apply Forall_cons in Hzb as [Hy _]. congruence.
    - injection El as -> _. apply Forall_cons in Hmb as [Hy _]. congruence. }
  assert (z <> []) as Hnz.
  { intros ->. rewrite app_nil_r in *. destruct Hl as (l' & x & -> & Ex). destruct m as [|y m _] using rev_ind.
    - rewrite app_nil_r in El. rewrite <- El in Ha. apply Forall_app in Ha as [_ Ha]. apply Forall_cons in Ha as [Hx _].
      rewrite (ord_eq (gof x) g0) in Ex by done. congruence.
    - rewrite app_assoc in El. apply app_inj_tail in El as [_ ->]. apply Forall_app in Hm as [_ Hm]. apply Forall_cons in Hm as [Hy _]. congruence. }
  assert (between g l = m) as ->.
  { unfold between. destruct l as [|f l']; [by destruct Hf as (? & ? & ? & _)|].
    assert (kcmp (gof f) g0 = Eq) as Ef. { destruct Hf as (x & ? & [= <- <-] & Ex). done. }
    rewrite El, !List.filter_app. rewrite (filter_none _ a), (filter_all _ m), (filter_none _ z); [by rewrite app_nil_r| | |].
    - eapply Forall_impl; [exact Hz|]. simpl. intros x Hx. apply in_group_true in Hx. by rewrite Hx, andb_false_r.
    - apply Forall_forall. intros x Hx. rewrite Forall_forall in Hm, Hmb. specialize (Hm x Hx). specialize (Hmb x Hx).
      rewrite (proj2 (in_group_false g x)) by congruence. rewrite (in_group_eq (gof f) g0) by done.
      rewrite (proj2 (in_group_false g0 x)) by (by rewrite (lt_neq_sym g0)). done.
    - eapply Forall_impl; [exact Ha|]. simpl. intros x Hx. rewrite (in_group_eq (gof f) g0) by done.
      apply in_group_true in Hx. by rewrite Hx. }
  assert (gsorted (m ++ z)) as Hsmz by done.
  assert (number (m ++ z) = number m + 1) as Nmz.
  { destruct (decide (m = [])) as [->|Hnm]; [by rewrite (number_same z g) by done|].
    destruct (last_exists m Hnm) as [gm Lm]. pose proof (number_app _ _ _ _ Hsb Lm (one_first _ _ Hnz Hz)) as H.
    rewrite H, (number_same z g) by done. destruct (group_eqb gm g) eqn:E; [|lia]. apply eqb_true in E.
    destruct Lm as (m' & y & -> & Ey). apply Forall_app in Hm as [_ Hm]. apply Forall_cons in Hm as [Hy _].
    rewrite (ord_eq (gof y) gm) in Hy by done. congruence. }
  assert (exists gf, first_is (m ++ z) gf /\ kcmp g0 gf = Lt) as (gf & Fmz & Hgf).
  { assert (m ++ z <> []) as Hne by (by destruct m). destruct (m ++ z) as [|y r] eqn:Eb; [done|]. exists (gof y).
    split; [exists y, r; split; [done|apply ord_refl]|]. assert (Forall (fun x => kcmp g0 (gof x) = Lt) (m ++ z)) as Hall by (by apply Forall_app).
    rewrite Eb in Hall. by apply Forall_cons in Hall as [? _]. }
  rewrite El in Hs. pose proof (number_app _ _ _ _ Hs (one_last _ _ Hna Ha) Fmz) as Nall.
  assert (group_eqb g0 gf = false) as Eg by (unfold group_eqb; by rewrite Hgf).
  rewrite Eg, (number_same a g0), Nmz in Nall by done.
  assert (size g0 m = 0) as E1. { apply size_none. eapply Forall_impl; [exact Hmb|]. simpl. intros x Hx. by rewrite (lt_neq_sym g0). }
  assert (size g0 z = 0) as E2. { apply size_none. eapply Forall_impl; [exact Hzb|]. simpl. intros x Hx. by rewrite (lt_neq_sym g0). }
  assert (size g m = 0) as E3. { apply size_none. eapply Forall_impl; [exact Hm|]. simpl. intros x Hx. by rewrite Hx. }
  assert (size g a = 0) as E4. { apply size_none. eapply Forall_impl; [exact Ha|]. simpl. intros x Hx. rewrite (ord_eq (gof x) g0) by done. by rewrite Hlt. }
  rewrite El, !size_app, !app_length, E1, E2, E3, E4, (size_all g0 a), (size_all g z) by done. split; lia.
Qed.

Lemma leaf_loop_exact (g0 : G) (rest pre : list entry) (cn mn la : nat) (lg : G) (at_last : bool) :
  gsorted (pre ++ rest) -> first_is pre g0 -> last_is pre lg ->
  (if at_last then kcmp g0 lg = Lt /\ la + number pre + size g0 pre = length pre + 2 /\ size lg pre <= la
   else kcmp g0 lg = Eq /\ cn = 1 /\ la = 1) ->
  let '(cn', _, la', lg') := gc_leaf_loop (map fst rest) cn mn la lg at_last in
  last_is (pre ++ rest) lg' /\
  (cn' = 1 \/ kcmp g0 lg' = Lt /\ la' + number (pre ++ rest) + size g0 (pre ++ rest) = length (pre ++ rest) + 2 /\
    size lg' (pre ++ rest) <= la').
Proof.
  revert pre cn mn la lg at_last. induction rest as [|x rest IH]; intros pre cn mn la lg at_last Hs Hf Hl Ha; cbn [gc_leaf_loop map].
  - rewrite app_nil_r. split; [done|]. destruct at_last; [by right|]. left. tauto.
  - fold (gof x). assert (pre ++ x :: rest = (pre ++ [x]) ++ rest) as Ew by (by rewrite <- app_assoc).
    rewrite Ew in *. assert (gsorted (pre ++ [x])) as Hsp by (by apply gsorted_app in Hs as (Hs & _)).
    assert (first_is [x] (gof x)) as Hfx by (exists x, []; split; [done|apply ord_refl]).
    pose proof (number_app _ _ _ _ Hsp Hl Hfx) as Hnum. pose proof (meet_ok _ _ _ _ Hsp Hl Hfx) as M.
    change (number [x]) with 1 in Hnum.
    assert (forall g, size g [x] = if in_group g x then 1 else 0) as Hsx by (intros g; rewrite size_cons, size_nil; lia).
    assert (length (pre ++ [x]) = length pre + 1) as Hlen by (by rewrite app_length).
    assert (1 <= number pre) as Hn1.
    { destruct Hf as (y & l & -> & _). clear. induction l as [|w l IHl] in y |- *; simpl; [lia|]. specialize (IHl w). simpl in IHl. lia. }
    destruct (group_eqb lg (gof x)) eqn:E; simpl negb; cbv iota.
    + apply eqb_true in E. assert (last_is (pre ++ [x]) lg) as Hl'.
      { apply last_app. exists [], x. split; [done|]. by apply kcmp_eq_sym. }
      destruct at_last.
      * apply IH; try done; [by apply first_app|]. destruct Ha as (Ha1 & Ha2 & Ha3). split; [done|].
        rewrite !size_app, !Hsx, (proj2 (in_group_false g0 x)), (proj2 (in_group_true lg x)); [|by apply kcmp_eq_sym|].
        -- split; lia.
        -- rewrite (lt_neq_sym g0); [done|]. eapply lt_le_trans; [apply Ha1|]. congruence.
      * apply IH; try done. by apply first_app.
    + assert (kcmp lg (gof x) = Lt) as Hlt by (apply eqb_false_lt; [done|apply M]).
      assert (kcmp g0 lg <> Gt) as H0 by (destruct at_last; rewrite (proj1 Ha); done).
      assert (kcmp g0 (gof x) = Lt) as H1 by (by eapply le_lt_trans).
      apply IH; try done; [by apply first_app|apply last_app; exists [], x; split; [done|apply ord_refl]|].
      split; [done|]. rewrite !size_app, !Hsx, (proj2 (in_group_false g0 x)) by (by rewrite (lt_neq_sym g0)).
      rewrite (proj2 (in_group_true (gof x) x)) by apply ord_refl. rewrite (mt_size_l _ _ _ _ M (gof x)) by done.
      destruct at_last.
      * destruct Ha as (Ha1 & Ha2 & Ha3). assert (1 <= size lg pre).
        { destruct Hl as (l' & y & -> & Ey). rewrite size_app, size_cons. apply in_group_true in Ey. rewrite Ey. lia. }
        split; lia.
      * destruct Ha as (Ha1 & _ & ->). assert (Forall (fun x => kcmp (gof x) g0 = Eq) pre) as Hall.
        { assert (gsorted pre) as Hspre by (apply gsorted_app in Hsp; tauto).
          pose proof (gs_first_le _ _ Hspre Hf) as F1. pose proof (gs_last_ge _ _ Hspre Hl) as F2.
          rewrite Forall_forall in F1, F2 |- *. intros y Hy. apply le_antisym; [|by apply F1].
          rewrite (kcmp_eq_r g0 lg) by tauto. by apply F2. }
        rewrite (size_all g0 pre) by done. rewrite (number_same pre g0) in Hnum by (done || by eapply first_nonnil).
        split; lia.
Qed.

Lemma haunt_leaf kvs : gsorted kvs -> haunt (gc_from_leaf (map fst kvs)) [kvs].
Proof.
  intros Hs. destruct kvs as [|x kvs]; [done|]. cbn [gc_from_leaf map]. fold (gof x).
  assert (first_is [x] (gof x)) as Hf by (exists x, []; split; [done|apply ord_refl]).
  assert (last_is [x] (gof x)) as Hl by (exists [], x; split; [done|apply ord_refl]).
  pose proof (leaf_loop_exact (gof x) kvs [x] 1 1 1 (gof x) false Hs Hf Hl) as H.
  destruct (gc_leaf_loop (map fst kvs) 1 1 1 (gof x) false) as [[[cn mn] la] lg]. cbn [app] in H.
  destruct H as (Hlast & H); [split; [apply ord_refl|done]|].
  destruct H as [->|(Hlt & H1 & H2)]; [done|].
  destruct cn as [|[|n]]; [| done|]; cbn [haunt fst snd]; rewrite cnt_one.
  all: assert (first_is (x :: kvs) (gof x)) as Hfx by (exists x, kvs; split; [done|apply ord_refl]).
  all: destruct (between_ok (gof x) lg _ Hs Hfx Hlast Hlt) as [B1 B2].
  all: assert (ghosts lg (x :: kvs) = length (between lg (x :: kvs)) - number (between lg (x :: kvs))) as Eg.
  1, 3: destruct Hlast as (l' & z & El & Ez); unfold ghosts; rewrite El, last_snoc; rewrite <- El;
    rewrite (proj2 (in_group_true lg z)) by done; rewrite (proj2 (in_group_false lg x)) by (by rewrite Hlt); done.
  all: rewrite Eg; lia.
Qed.

(** ** Trees *)
Context (nd : bool).
Local Instance fault_group : AugOps K V (group_count G) := group_aug nd.
Local Instance fault_group_search : SearchOps K V (group_count G) (G * nat) := group_search.
Local Instance fault_group_rank : RankOps K V (group_count G) (option (G * nat)) := group_rank.
Notation tree := (tree K V (group_count G)).
Notation tr := (tr K V).
Notation aug := (aug_of (A:=group_count G)).

Definition tl (t : tr) : list (list entry) := map snd (leaf_seq t).
Definition tls (ch : list tr) : list (list entry) := concat (map tl ch).
Lemma tl_node id ks ch : tl (TNode id ks ch) = tls ch.
Proof. unfold tl, tls. cbn [leaf_seq]. by rewrite concat_map, map_map. Qed.
Lemma tl_leaf id kvs : tl (TLeaf id kvs) = [kvs].
Proof. done. Qed.
Lemma flat_tl t : flat t = concat (tl t).
Proof. done. Qed.
Lemma flat_tls ch : concat (map flat ch) = concat (tls ch).
Proof. induction ch as [|c ch IH]; [done|]. unfold tls in *. simpl. by rewrite concat_app, <- IH. Qed.
Lemma tls_app c1 c2 : tls (c1 ++ c2) = tls c1 ++ tls c2.
Proof. unfold tls. by rewrite map_app, concat_app. Qed.
Lemma tls_cons c ch : tls (c :: ch) = tl c ++ tls ch.
Proof. done. Qed.
Lemma of_tr_leaves t : view_leaves (of_tr t) = tl t.
Proof.
  induction t as [id kvs|id ks ch IH] using tr_ind'; [done|]. rewrite tl_node. simpl. rewrite map_map. unfold tls. f_equal.
  apply map_ext_in. intros c Hc. rewrite Forall_forall in IH. by apply IH, elem_of_list_In.
Qed.

Definition kid' (c : tr) : Prop := flat c <> [] /\ summ (aug c) (flat c) /\ haunt (aug c) (tl c).

Lemma haunt_tree rl ri m b h t : 1 <= rl -> nshape rl ri m b h t -> ascending (flat t) -> haunt (aug t) (tl t).
Proof.
  intros Hrl. revert m b t. induction h as [|h IH]; intros m b [id kvs|id ks ch] Hn Ha; try done.
  - rewrite flat_leaf in Ha. by apply haunt_leaf, asc_gsorted.
  - rewrite tl_node. destruct Hn as (_ & _ & Hc). rewrite flat_node in Ha.
    change (aug (TNode id ks ch)) with (fold_left gc_merge (map aug ch) GcZero).
    apply (haunt_fold (map aug ch) (map tl ch) GcZero []); [|done|done|].
    + change (concat (map tl ch)) with (tls ch). cbn [app]. rewrite <- flat_tls. by apply asc_gsorted.
    + apply Forall2_fmap, Forall_Forall2_diag, Forall_forall. intros c Hin.
      assert (ascending (flat c)) as Hac. { eapply asc_concat; [exact Ha|]. apply elem_of_list_fmap. by exists c. }
      rewrite <- flat_tl.
      destruct (chs_elem _ _ _ _ Hc Hin) as [Hx|Hx]; (split;
        [eapply (aug_of_summary rl ri Hrl summ (group_summary nd)); [exact Hx|done]|eapply IH; [by apply shape_nshape in Hx|done]]).
Qed.

Lemma kid'_max c : kid' c -> exists mg n, gc_max_group (aug c) = Some (mg, n) /\ last_is (flat c) mg /\ n = cnt mg (tl c).
Proof.
  intros (Hn & Hs & Hc). destruct (aug c) as [|g n|mn [g n] k]; simpl in *.
  - done.
  - destruct Hs as (H1 & H2 & ->). exists g, (length (flat c)). split; [done|]. split; [by apply one_last|].
    rewrite cnt_all; [done|]. by rewrite <- flat_tl.
  - exists g, n. split; [done|]. split; [tauto|done].
Qed.

Definition grouped' (rl ri : nat) (t : tr) : Prop := exists m b h, nshape rl ri m b h t /\ ascending (flat t).
Lemma grouped'_kids rl ri id ks ch : 1 <= rl -> grouped' rl ri (TNode id ks ch) ->
  Forall (grouped' rl ri) ch /\ Forall kid' ch.
Proof.
  intros Hrl (m & b & h & Hn & Ha). destruct h as [|h]; [done|]. destruct Hn as (_ & _ & Hs).
  rewrite flat_node in Ha. rewrite <- Forall_and. apply Forall_forall. intros c Hin.
  assert (ascending (flat c)) as Hac. { eapply asc_concat; [exact Ha|]. apply elem_of_list_fmap. by exists c. }
  apply elem_of_list_split in Hin as (cl & cr & ->). apply chs_app in Hs as (_ & Hs & _). split.
  - eexists _, _, h. split; [by apply shape_nshape|]. done.
  - split; [by eapply shape_flat_nonnil|]. split.
    + by eapply (aug_of_summary rl ri Hrl summ (group_summary nd)).
    + eapply haunt_tree; [done|by apply shape_nshape in Hs|done].
Qed.

Lemma root_haunt rl ri T h t : 1 <= rl -> InvAt (A:=group_count G) rl ri True T h t ->
  match gc_max_group (t_aug T) with
  | None => flat t = []
  | Some (g, c) => last_is (flat t) g /\ c = cnt g (tl t)
  end.
Proof.
  intros Hrl HI. destruct (inv_aug _ _ _ _ _ _ HI I) as [Ea|[E Ea]].
  - pose proof (root_summary rl ri Hrl summ (group_summary nd) T h t HI) as Hs. rewrite Ea in Hs |- *.
    pose proof (haunt_tree rl ri _ _ h t Hrl (inv_shape _ _ _ _ _ _ HI) (inv_ascending _ _ _ _ _ _ HI)) as Hc.
    destruct (decide (flat t = [])) as [E|E].
    { destruct (aug t) as [|g n|mn [g n] k]; simpl in *; [done|by destruct Hs as (? & _)|]. destruct Hs as ((? & ? & ? & _) & _). congruence. }
    destruct (kid'_max t) as (mg & n & -> & H1 & H2); [done|]. done.
  - rewrite Ea. done.
Qed.

(** ** Search *)
Fixpoint cpos ls g i : option nat :=
  match ls with
  | [] => None
  | leaf :: ls' =>
      if decide (i < size g leaf) then group_pos leaf g i
      else if decide (i < size g leaf + ghosts g leaf) then None
      else Nat.add (length leaf) <$> cpos ls' g (i - (size g leaf + ghosts g leaf))
  end.
Lemma cpos_none ls g i : cnt g ls <= i -> cpos ls g i = None.
Proof.
  revert i. induction ls as [|leaf ls IH]; intros i; [done|]. rewrite cnt_cons. intros H. cbn [cpos].
  rewrite decide_False by lia. rewrite decide_False by lia. by rewrite IH by lia.
Qed.
Lemma cpos_app ls1 ls2 g i : cpos (ls1 ++ ls2) g i =
  if decide (i < cnt g ls1) then cpos ls1 g i else Nat.add (length (concat ls1)) <$> cpos ls2 g (i - cnt g ls1).
Proof.
  revert i. induction ls1 as [|leaf ls1 IH]; intros i.
  - rewrite cnt_nil, decide_False by lia. simpl. rewrite Nat.sub_0_r. by destruct (cpos ls2 g i).
  - cbn [app cpos]. rewrite cnt_cons, IH.
    destruct (decide (i < size g leaf)); [by rewrite decide_True by lia|].
    destruct (decide (i < size g leaf + ghosts g leaf)); [by rewrite decide_True by lia|].
    destruct (decide (i - (size g leaf + ghosts g leaf) < cnt g ls1)).
    + by rewrite decide_True by lia.
    + rewrite decide_False by lia. replace (i - (size g leaf + ghosts g leaf) - cnt g ls1) with (i - (size g leaf + ghosts g leaf + cnt g ls1)) by lia.
      destruct (cpos ls2 g _); simpl; [|done]. f_equal. rewrite app_length. lia.
Qed.
Lemma cpos_leaf leaf g i : cpos [leaf] g i = group_pos leaf g i.
Proof.
  cbn [cpos]. destruct (decide (i < size g leaf)); [done|]. rewrite group_pos_none by lia. by destruct (decide _).
Qed.
Lemma cpos_counted ls g i : mjoin (counted g ls !! i) = match cpos ls g i with Some j => concat ls !! j | None => None end.
Proof.
  revert i. induction ls as [|leaf ls IH]; intros i; [done|]. unfold counted. cbn [map concat cpos]. fold (counted g ls).
  destruct (decide (i < size g leaf)) as [H1|H1].
  { rewrite lookup_app_l by (rewrite counted_in_length; lia). unfold counted_in.
    rewrite lookup_app_l by (by rewrite map_length). change (map Some (group_members g leaf)) with (Some <$> group_members g leaf).
    rewrite list_lookup_fmap. pose proof (group_pos_members leaf g i) as E.
    destruct (lookup_lt_is_Some_2 (group_members g leaf) i H1) as [x Hx]. rewrite Hx in E |- *. simpl.
    destruct (group_pos leaf g i) as [j|]; [|done]. symmetry. by apply lookup_app_l_Some. }
  destruct (decide (i < size g leaf + ghosts g leaf)) as [H2|H2].
  { rewrite lookup_app_l by (rewrite counted_in_length; lia). unfold counted_in.
    rewrite lookup_app_r by (rewrite map_length; unfold group_size in *; lia).
    destruct (repeat None (ghosts g leaf) !! _) as [o|] eqn:E; [|done]. apply elem_of_list_lookup_2, elem_of_list_In, repeat_spec in E.
    by subst. }
  rewrite lookup_app_r by (rewrite counted_in_length; lia). rewrite counted_in_length, IH.
  destruct (cpos ls g _) as [j|]; simpl; [|done]. rewrite lookup_app_r by lia. f_equal. lia.
Qed.

Lemma locate_inner_exact (ch : list tr) idx g off : Forall kid' ch -> gsorted (concat (map flat ch)) ->
  match gc_locate_inner (map aug ch) idx g off with
  | None => cpos (tls ch) g off = None
  | Some (i, q) => exists cl c cr, ch = cl ++ c :: cr /\ i = idx + length cl /\
      cpos (tls ch) g off = Nat.add (length (concat (map flat cl))) <$> cpos (tl c) q.1 q.2
  end.
Proof.
  intros Hk. revert idx off. induction Hk as [|c ch Hc Hk IH]; intros idx off Hs; [done|].
  cbn [map concat] in *. cbn [gc_locate_inner]. rewrite tls_cons.
  assert (gsorted (flat c) /\ gsorted (concat (map flat ch))) as [Hs1 Hs2] by (apply gsorted_app in Hs; tauto).
  assert (forall off, cnt g (tl c) <= off ->
    match gc_locate_inner (map aug ch) (S idx) g (off - cnt g (tl c)) with
    | None => cpos (tl c ++ tls ch) g off = None
    | Some (i, q) => exists cl d cr, c :: ch = cl ++ d :: cr /\ i = idx + length cl /\
        cpos (tl c ++ tls ch) g off = Nat.add (length (concat (map flat cl))) <$> cpos (tl d) q.1 q.2
    end) as Hskip.
  { intros o Ho. specialize (IH (S idx) (o - cnt g (tl c)) Hs2). rewrite cpos_app, decide_False by lia.
    destruct (gc_locate_inner _ _ _ _) as [[i q]|].
    - destruct IH as (cl & d & cr & -> & -> & ->). exists (c :: cl), d, cr. simpl. split; [done|]. split; [lia|].
      destruct (cpos (tl d) q.1 q.2); simpl; [|done]. f_equal. rewrite app_length, flat_tl. lia.
    - by rewrite IH. }
  assert (forall off, off < cnt g (tl c) \/ size g (concat (map flat ch)) = 0 ->
    exists cl d cr, c :: ch = cl ++ d :: cr /\ idx = idx + length cl /\
        cpos (tl c ++ tls ch) g off = Nat.add (length (concat (map flat cl))) <$> cpos (tl d) g off) as Hhere.
  { intros o Ho. exists [], c, ch. simpl. split; [done|]. split; [lia|]. rewrite cpos_app.
    destruct (decide (o < cnt g (tl c))); [by destruct (cpos (tl c) g o)|].
    rewrite (cpos_none (tl c)) by lia. rewrite cpos_none; [done|]. rewrite cnt_absent; [lia|]. rewrite <- flat_tls. by destruct Ho. }
  assert (forall mg, last_is (flat c) mg -> kcmp mg g = Lt -> cnt g (tl c) = 0) as Hlow.
  { intros mg Hl Eg. apply cnt_absent. rewrite <- flat_tl. by eapply below_last. }
  destruct (kid'_max c Hc) as (mg & n & Em & Hlast & Hn).
  destruct (aug c) as [|g1 c1|mn mx cn] eqn:Ea; [done| |].
  - injection Em as -> ->. destruct (kcmp mg g) eqn:Eg.
    + assert (n = cnt g (tl c)) as -> by (by rewrite Hn, (cnt_eq mg g)). case_decide.
      * apply Hhere. by left.
      * apply Hskip. lia.
    + specialize (Hskip off). rewrite (Hlow _ Hlast Eg), Nat.sub_0_r in Hskip. apply Hskip. lia.
    + apply cpos_none. rewrite cnt_app, (cnt_absent g (tls ch)) by (rewrite <- flat_tls; by apply (after_last _ _ _ _ Hs Hlast Eg)).
      destruct Hc as (_ & Hsm & _). rewrite Ea in Hsm. destruct Hsm as (_ & Hall & _).
      rewrite cnt_absent; [lia|]. rewrite <- flat_tl. apply size_none.
      eapply Forall_impl; [exact Hall|]. simpl. intros x Hx. rewrite (ord_eq (gof x) mg) by done. by rewrite Eg.
  - simpl in Em. injection Em as ->. cbn [fst snd]. destruct (kcmp mg g) eqn:Eg.
    + assert (n = cnt g (tl c)) as -> by (by rewrite Hn, (cnt_eq mg g)). case_decide.
      * apply Hhere. by left.
      * apply Hskip. lia.
    + specialize (Hskip off). rewrite (Hlow _ Hlast Eg), Nat.sub_0_r in Hskip. apply Hskip. lia.
    + apply Hhere. right. by apply (after_last _ _ _ _ Hs Hlast Eg).
Qed.

Lemma group_ref_exact rl ri T h t g i : 1 <= rl -> InvAt (A:=group_count G) rl ri True T h t -> h <= MAX_DEPTH ->
  match cpos (tl t) g i with
  | None => get_ref_by_augmentation T (g, i) = Ok None
  | Some j => exists id kvs mA mB s1 s2 st off, reach t id kvs mA mB s1 s2 st /\
      get_ref_by_augmentation T (g, i) = Ok (Some (st, id, off)) /\
      off < length kvs /\ j = length (elems mA) + off
  end.
Proof.
  intros Hrl HI Hh.
  refine (ref_by_aug_tr (grouped' rl ri) (fun t q => cpos (tl t) q.1 q.2) _ _ _ rl ri T h t (g, i) HI _ Hh).
  - intros id kvs q (m & b & h' & _ & Ha). rewrite flat_leaf in Ha. cbn [locate_in_leaf fault_group_search group_search].
    rewrite tl_leaf, cpos_leaf. unfold keysof. rewrite locate_leaf_ok by (by apply asc_gsorted || lia). rewrite Nat.sub_0_r. split.
    + by destruct (group_pos kvs q.1 q.2).
    + intros j. apply group_pos_lt.
  - intros id ks ch q Hg. cbn [locate_in_inner fault_group_search group_search]. rewrite tl_node.
    destruct (grouped'_kids _ _ _ _ _ Hrl Hg) as [_ Hk].
    assert (gsorted (concat (map flat ch))) as Hs.
    { destruct Hg as (m & b & h' & _ & Ha). rewrite flat_node in Ha. by apply asc_gsorted. }
    pose proof (locate_inner_exact ch 0 q.1 q.2 Hk Hs) as H. destruct (gc_locate_inner _ _ _ _) as [[j q']|]; done.
  - intros id ks ch Hg. by apply (grouped'_kids _ _ _ _ _ Hrl Hg).
  - exists (rmin h), true, h. split; [apply HI|]. by eapply inv_ascending.
Qed.

(** ** [ExtractGroupSize] *)
Definition extracted g ls : nat := cnt g (earlier ls) + size g (final ls).
Lemma extracted_app g ls1 ls2 : ls2 <> [] -> extracted g (ls1 ++ ls2) = cnt g ls1 + extracted g ls2.
Proof.
  intros H. unfold extracted, earlier, final. rewrite removelast_app by done. rewrite cnt_app.
  destruct ls2 as [|x ls2 _] using rev_ind; [done|]. rewrite app_assoc, !last_snoc. lia.
Qed.
Lemma extracted_snoc g ls leaf : extracted g (ls ++ [leaf]) = cnt g ls + size g leaf.
Proof. rewrite extracted_app by done. done. Qed.
Lemma extracted_absent g ls : size g (concat ls) = 0 -> extracted g ls = 0.
Proof.
  destruct ls as [|leaf ls _] using rev_ind; [done|]. rewrite extracted_snoc, concat_app, size_app. simpl. rewrite app_nil_r.
  intros H. rewrite cnt_absent by lia. lia.
Qed.
Lemma extracted_all g mg ls : last_is (concat ls) mg -> kcmp mg g <> Eq -> extracted g ls = cnt g ls.
Proof.
  intros Hl Hg. destruct ls as [|leaf ls _] using rev_ind; [done|]. rewrite extracted_snoc, cnt_app, cnt_one, ghosts_off; [lia|].
  intros l z ->. apply in_group_false. intros E. apply Hg. destruct Hl as (l' & z' & El & Ez).
  rewrite concat_app in El. cbn [concat] in El. rewrite app_nil_r, app_assoc in El. apply app_inj_tail in El as [_ ->].
  rewrite <- (ord_eq (gof z') mg) by done. done.
Qed.

Lemma egs_inner_exact g e (ch cl : list tr) ci prev el :
  Forall kid' (cl ++ ch) -> gsorted (concat (map flat (cl ++ ch))) ->
  match list.last cl with
  | None => ci = 0 /\ prev = 0 /\ el = e /\ ch <> []
  | Some d => S ci = length cl /\ prev = cnt g (tl d) /\ el + prev = e + cnt g (tls cl)
  end ->
  exists (a : list tr) (c : tr) (z : list tr) (el' : nat), cl ++ ch = a ++ c :: z /\ el' = e + cnt g (tls a) /\
    (z = [] \/ exists mg, last_is (flat c) mg /\ kcmp mg g = Gt) /\
    egs_inner_loop (map aug ch) (length cl) g ci prev el = Some (length a, el').
Proof.
  revert cl ci prev el. induction ch as [|c ch IH]; intros cl ci prev el Hk Hs Hst; cbn [map egs_inner_loop].
  - destruct cl as [|d cl _] using rev_ind; [by destruct Hst as (_ & _ & _ & ?)|]. rewrite last_snoc in Hst.
    destruct Hst as (Hci & -> & Hel). exists cl, d, [], el. rewrite app_nil_r. split; [done|].
    rewrite tls_app, tls_cons in Hel. unfold tls at 2 in Hel. cbn [map concat] in Hel. rewrite app_nil_r, cnt_app in Hel.
    rewrite app_length in Hci. simpl in Hci. split; [lia|]. split; [by left|]. by replace ci with (length cl) by lia.
  - assert (kid' c) as Hkc by (apply Forall_app in Hk as [_ Hk]; by apply Forall_cons in Hk as [Hk _]).
    destruct (kid'_max c Hkc) as (mg & n & Em & Hlast & Hn). rewrite Em.
    assert (el + prev = e + cnt g (tls cl)) as Hel.
    { destruct cl as [|d cl _] using rev_ind.
      - destruct Hst as (_ & -> & -> & _). simpl. done.
      - rewrite last_snoc in Hst. tauto. }
    assert (cl ++ c :: ch = (cl ++ [c]) ++ ch) as Ecl by (by rewrite <- app_assoc).
    assert (length (cl ++ [c]) = S (length cl)) as Elen by (rewrite app_length; simpl; lia).
    assert (cnt g (tls (cl ++ [c])) = cnt g (tls cl) + cnt g (tl c)) as Esz.
    { rewrite tls_app, cnt_app. unfold tls at 2. simpl. by rewrite app_nil_r. }
    destruct (kcmp mg g) eqn:Eg.
    + rewrite Ecl in *. destruct (IH (cl ++ [c]) (length cl) n (el + prev) Hk Hs) as (a & d & z & el' & E1 & E2 & E3 & E4).
      { rewrite last_snoc, Elen, Esz. split; [done|]. rewrite Hn, (cnt_eq mg g) by done. split; [done|]. lia. }
      exists a, d, z, el'. rewrite Elen in E4. done.
    + rewrite Ecl in *.
      assert (cnt g (tls cl) = 0 /\ cnt g (tl c) = 0) as [Hc0 Hc1].
      { rewrite map_app, concat_app in Hs. apply gsorted_app in Hs as (Hs & _). rewrite map_app, concat_app in Hs. simpl in Hs.
        rewrite app_nil_r in Hs. assert (last_is (concat (map flat cl) ++ flat c) mg) as Hl by (by apply last_app).
        pose proof (below_last _ _ _ Hs Hl Eg) as H0. rewrite size_app in H0. rewrite flat_tls, flat_tl in H0.
        split; apply cnt_absent; lia. }
      assert (prev = 0) as Hp0.
      { destruct cl as [|d cl _] using rev_ind; [by destruct Hst as (_ & -> & _)|]. rewrite last_snoc in Hst. destruct Hst as (_ & -> & _).
        rewrite tls_app, cnt_app in Hc0. unfold tls at 2 in Hc0. simpl in Hc0. rewrite app_nil_r in Hc0. lia. }
      destruct (IH (cl ++ [c]) (length cl) prev el Hk Hs) as (a & d & z & el' & E1 & E2 & E3 & E4).
      { rewrite last_snoc, Elen, Esz, Hc1. split; [done|]. split; [done|]. lia. }
      exists a, d, z, el'. rewrite Elen in E4. done.
    + exists cl, c, ch, (el + prev). split; [done|]. split; [done|]. split; [|done]. right. by exists mg.
Qed.

Lemma tl_nonnil c : flat c <> [] -> tl c <> [].
Proof. intros H E. apply H. by rewrite flat_tl, E. Qed.

Lemma egs_walk_exact rl ri m b h t g e : 1 <= rl -> nshape rl ri m b h t -> ascending (flat t) ->
  walk (extract_group_size g) (of_tr t) e = Ok (Some (e + extracted g (tl t))).
Proof.
  intros Hrl. revert m b t e. induction h as [|h IH]; intros m b [id kvs|id ks ch] e Hn Ha; try done.
  - rewrite flat_leaf in *. cbn [walk of_tr visit_leaf extract_group_size]. f_equal. f_equal.
    rewrite egs_leaf_ok by (by apply asc_gsorted). done.
  - destruct (grouped'_kids rl ri id ks ch Hrl) as [_ Hk]; [by exists m, b, (S h)|].
    rewrite flat_node in *. destruct Hn as (_ & Hc & Hs). rewrite tl_node.
    cbn [walk of_tr visit_inner extract_group_size].
    assert (map view_aug (map of_tr ch) = map (aug_of (A:=group_count G)) ch) as ->.
    { rewrite map_map. apply map_ext. apply of_tr_aug. }
    assert (gsorted (concat (map flat ch))) as Hgs by (by apply asc_gsorted).
    destruct (egs_inner_exact g e ch [] 0 0 e Hk) as (a & c & z & el' & E1 & E2 & E3 & E4); [done|by destruct ch|].
    simpl in E1, E4. rewrite E4. subst ch el'. cbv iota beta.
    rewrite map_map, map_app. rewrite app_nth2 by (rewrite map_length; lia). rewrite map_length, Nat.sub_diag. simpl nth.
    apply chs_app in Hs as (_ & Hs & _). rewrite map_app, concat_app in *. simpl in Ha, Hgs.
    assert (ascending (flat c)) as Hac by (apply asc_app in Ha as [_ Ha]; by apply asc_app in Ha as [Ha _]).
    rewrite (IH _ _ c _ (proj1 (shape_nshape _ _ _ _ _) Hs) Hac). f_equal. f_equal.
    apply Forall_app in Hk as [_ Hk]. apply Forall_cons in Hk as [(Hne & _) Hkz]. apply tl_nonnil in Hne.
    rewrite tls_app, tls_cons. rewrite (extracted_app g (tls a)) by (by destruct (tl c)).
    assert (extracted g (tl c ++ tls z) = extracted g (tl c)) as ->; [|lia].
    destruct (decide (tls z = [])) as [-> |Hz]; [by rewrite app_nil_r|].
    destruct E3 as [-> |(mg & Hl & Hg)]; [done|].
    apply gsorted_app in Hgs as (_ & Hgs & _). pose proof (after_last _ _ _ _ Hgs Hl Hg) as H0. rewrite flat_tls in H0.
    rewrite extracted_app, (extracted_absent g (tls z)) by done. rewrite (extracted_all g mg (tl c)); [lia|done|congruence].
Qed.

(** ** Rank *)
Lemma tls_one (c : tr) : tls [c] = tl c.
Proof. unfold tls. simpl. by rewrite app_nil_r. Qed.
Lemma fold_rev_exact mg (cl : list tr) sz : Forall kid' cl -> gsorted (concat (map flat cl)) ->
  Forall (fun x => kcmp (gof x) mg <> Gt) (concat (map flat cl)) ->
  gc_fold_rev (map aug (rev cl)) mg sz = sz + cnt mg (tls cl).
Proof.
  revert sz. induction cl as [|c cl IH] using rev_ind; intros sz Hk Hs Hle.
  - simpl. rewrite cnt_nil. lia.
  - rewrite rev_app_distr. cbn [rev app map gc_fold_rev].
    apply Forall_app in Hk as [Hk Hc]. apply Forall_cons in Hc as [Hc _].
    rewrite map_app, concat_app in *. simpl in Hs, Hle |- *. rewrite app_nil_r in *.
    destruct (kid'_max c Hc) as (g & n & -> & Hlast & ->).
    assert (gsorted (concat (map flat cl)) /\ gsorted (flat c)) as [Hs1 Hs2] by (apply gsorted_app in Hs; tauto).
    apply Forall_app in Hle as [Hle1 Hle2]. rewrite tls_app, cnt_app. unfold tls at 2. simpl. rewrite app_nil_r. destruct (group_eqb g mg) eqn:E.
    + rewrite IH by done. apply eqb_true in E. rewrite (cnt_eq g mg) by done. lia.
    + assert (kcmp g mg = Lt) as Hlt.
      { apply eqb_false_lt; [done|]. destruct Hlast as (l' & x & El & Ex). rewrite El in Hle2.
        apply Forall_app in Hle2 as [_ Hx]. apply Forall_cons in Hx as [Hx _].
        intros Hgt. apply Hx. rewrite (ord_eq (gof x) g) by done. done. }
      assert (last_is (concat (map flat cl) ++ flat c) g) as Hl2 by (by apply last_app).
      pose proof (below_last _ _ _ Hs Hl2 Hlt) as H0. rewrite size_app, flat_tls, flat_tl in H0.
      rewrite !cnt_absent by lia. lia.
Qed.

Lemma fold_inner_exact (cl : list tr) rank : cl <> [] -> Forall kid' cl -> gsorted (concat (map flat cl)) ->
  exists mg, last_is (concat (map flat cl)) mg /\
    gc_fold_inner rank (map aug cl) = Some (
      match rank with
      | Some (g, c) => if group_eqb g mg then (g, c + cnt mg (tls cl)) else (mg, cnt mg (tls cl))
      | None => (mg, cnt mg (tls cl))
      end).
Proof.
  intros Hne Hk Hs. destruct cl as [|c cl _] using rev_ind; [done|]. unfold gc_fold_inner. rewrite <- map_rev, rev_app_distr.
  cbn [rev app map]. apply Forall_app in Hk as [Hk Hc]. apply Forall_cons in Hc as [Hc _].
  rewrite map_app, concat_app in *. simpl in Hs |- *. rewrite app_nil_r in *.
  destruct (kid'_max c Hc) as (g & n & -> & Hlast & ->). exists g. split; [by apply last_app|].
  assert (gsorted (concat (map flat cl))) as Hs1 by (apply gsorted_app in Hs; tauto).
  rewrite fold_rev_exact; [|done|done|].
  - rewrite tls_app, cnt_app, (tls_one c), (Nat.add_comm (cnt g (tl c))).
    destruct rank as [[g' c']|]; [|done]. by destruct (group_eqb g' g).
  - pose proof (gs_last_ge _ g Hs (last_app _ _ _ Hlast)) as H. by apply Forall_app in H as [H _].
Qed.

Definition rank_at (rank : option (G * nat)) ls : Prop :=
  match rank with
  | None => ls = []
  | Some (g, c) => last_is (concat ls) g /\ c = cnt g ls
  end.
Definition keep ls (cl : list tr) : list (list entry) := match cl with [] => [] | _ => ls ++ tls cl end.

Lemma keep_exact (cl : list tr) rank ls : Forall kid' cl -> gsorted (concat (ls ++ tls cl)) -> rank_at rank ls ->
  rank_at (gc_fold_inner rank (map aug cl)) (keep ls cl).
Proof.
  intros Hk Hs Hr. destruct (decide (cl = [])) as [-> |Hne]; [done|].
  assert (keep ls cl = ls ++ tls cl) as -> by (by destruct cl).
  rewrite concat_app in Hs. assert (gsorted (concat ls) /\ gsorted (concat (map flat cl))) as [Hs0 Hs1].
  { rewrite flat_tls. apply gsorted_app in Hs. tauto. }
  destruct (fold_inner_exact cl rank Hne Hk Hs1) as (mg & Hl & ->). rewrite flat_tls in Hl.
  pose proof (last_app (concat ls) _ _ Hl) as Hl'.
  destruct rank as [[g c]|].
  - destruct Hr as [H1 ->]. destruct (group_eqb g mg) eqn:Eg; unfold rank_at; rewrite concat_app, cnt_app.
    + apply eqb_true in Eg. split; [eapply last_eq; [by apply kcmp_eq_sym|done]|]. by rewrite (cnt_eq mg g) by (by apply kcmp_eq_sym).
    + split; [done|]. rewrite (cnt_absent mg ls); [done|]. eapply (below_last _ _ g); [done|done|].
      apply eqb_false_lt; [done|]. destruct (first_exists (concat (tls cl))) as [gf Hf]; [by eapply last_nonnil|].
      pose proof (meet_ok _ _ _ _ Hs H1 Hf) as M. eapply le_trans; [apply M|].
      rewrite flat_tls in Hs1. pose proof (gs_first_le _ _ Hs1 Hf) as F. destruct Hl as (l' & y & El & Ey).
      rewrite El in F. apply Forall_app in F as [_ F]. apply Forall_cons in F as [F _].
      by rewrite <- (kcmp_eq_r (gof y) mg).
  - unfold rank_at in Hr |- *. subst ls. cbn [app]. split; [done|]. done.
Qed.

Definition kept (path : list (list tr)) ls : list (list entry) := foldl keep ls path.
Lemma kept_exact k path rank ls : Forall kid' (concat path) -> gsorted (concat (ls ++ tls (concat path))) -> rank_at rank ls ->
  rank_at (fold_path (R:=option (G * nat)) k rank path) (kept path ls).
Proof.
  revert rank ls. induction path as [|cl path IH]; intros rank ls Hk Hs Hr; [done|].
  cbn [concat] in *. rewrite tls_app, app_assoc in Hs. apply Forall_app in Hk as [Hk1 Hk2].
  assert (gsorted (concat (ls ++ tls cl))) as Hs1. { rewrite concat_app in Hs. apply gsorted_app in Hs. tauto. }
  apply IH; [done| |by apply keep_exact].
  unfold keep. destruct cl as [|c cl].
  - rewrite concat_app in Hs |- *. apply gsorted_app in Hs. cbn [concat app]. tauto.
  - done.
Qed.
Lemma kept_part path ls : exists p, concat (ls ++ tls (concat path)) = p ++ concat (kept path ls).
Proof.
  revert ls. induction path as [|cl path IH]; intros ls.
  - exists []. unfold kept, tls. simpl. by rewrite app_nil_r.
  - cbn [concat]. rewrite tls_app, app_assoc. destruct (IH (keep ls cl)) as [p E]. destruct cl as [|c cl].
    + exists (concat ls ++ p). cbn [keep] in E. unfold tls at 1. cbn [map concat]. rewrite app_nil_r, concat_app.
      cbn [app] in E. rewrite E. by rewrite app_assoc.
    + exists p. done.
Qed.

Lemma remembered_ok rl ri m b h k t ls : nshape rl ri m b h t ->
  kept (left_path k t) ls ++ [leaf_at k t] =
  let '(r, cut) := remembered k (of_tr t) in if (cut : bool) then r else ls ++ r.
Proof.
  revert m b t ls. induction h as [|h IH]; intros m b [id kvs|id ks ch] ls Hn; try done.
  destruct Hn as (_ & Hc & Hs). cbn [left_path leaf_at of_tr remembered].
  change (goes_to k ks) with (goes k ks).
  assert (goes k ks < length ch) as Hlt.
  { assert (goes k ks <= length ks); [|lia]. unfold goes. clear. induction ks as [|s ks IH]; [done|]. simpl. destruct (kcmp s k); simpl; lia. }
  destruct (lookup_lt_is_Some_2 ch (goes k ks) Hlt) as [c Hci]. apply elem_of_list_split_length in Hci as (cl & cr & -> & Hi).
  rewrite Hi. clear Hlt Hc.
  assert (forall X (f : tr -> X) d, nth (length cl) (map f (cl ++ c :: cr)) d = f c) as En.
  { intros X f d. rewrite map_app, app_nth2 by (rewrite map_length; lia). by rewrite map_length, Nat.sub_diag. }
  rewrite map_map, !En, take_app.
  assert (take (length cl) (map of_tr (cl ++ c :: cr)) = map of_tr cl) as ->.
  { rewrite map_app. apply take_app_alt. by rewrite map_length. }
  apply chs_app in Hs as (_ & Hs & _). apply shape_nshape in Hs.
  cbn [kept foldl]. fold (kept (left_path k c) (keep ls cl)). rewrite (IH _ _ c (keep ls cl) Hs).
  destruct (remembered k (of_tr c)) as [r cut]. destruct cut; [done|].
  destruct cl as [|c0 cl]; [done|]. cbn [length keep]. rewrite <- app_assoc. do 2 f_equal.
  rewrite map_map. unfold tls. f_equal. apply map_ext. intros x. by rewrite of_tr_leaves.
Qed.

Lemma fold_leaf_exact k rank ls (kvs a z : list entry) r : gsorted (concat ls ++ kvs) -> kvs = a ++ z ->
  Forall (fun x => kcmp x.1 k = Lt) (concat ls) -> Forall (fun x => kcmp x.1 k = Lt) a ->
  r = ROk (length a) \/ r = RErr (length a) ->
  (kvs = [] -> r = RErr (length a) /\ ls = []) ->
  rank_at rank ls ->
  let n := cnt (from_ref k) ls + size (from_ref k) a in
  gc_fold_leaf k rank r (map fst kvs) = match r with ROk _ => ROk (Some (from_ref k, n)) | RErr _ => RErr (Some (from_ref k, n)) end.
Proof.
  intros Hs Hz H0 Ha Hr Hnil Hi n.
  assert (forall w : entry, kcmp w.1 k = Lt -> kcmp (gof w) (from_ref k) <> Gt) as Hle.
  { intros w Hw. apply group_mono. by rewrite Hw. }
  assert (gsorted kvs) as Hsk by (apply gsorted_app in Hs; tauto).
  destruct kvs as [|x kvs'].
  { destruct Hnil as [-> ->]; [done|]. symmetry in Hz. apply app_eq_nil in Hz as [-> ->]. done. }
  cbn [map gc_fold_leaf]. fold (gof x).
  assert (gc_count_in (take (length a) (x.1 :: map fst kvs')) (from_ref k) = size (from_ref k) a) as Ec.
  { change (x.1 :: map fst kvs') with (map fst (x :: kvs')). rewrite Hz, map_app.
    rewrite take_app_alt by (by rewrite map_length). apply count_in_ok. }
  assert (Hcase : forall g off (m : nat), (group_eqb g (from_ref k) = true -> length a + off = m) ->
    (group_eqb g (from_ref k) = false -> size (from_ref k) a = m) ->
    (if group_eqb g (from_ref k) then
        match r with
        | ROk idx => ROk (Some (from_ref k, idx + off))
        | RErr idx => RErr (Some (from_ref k, idx + off))
        end
      else
        let slot_idx := match r with ROk i => i | RErr i => i end in
        let c := gc_count_in (take slot_idx (x.1 :: map fst kvs')) (from_ref k) in
        match r with
        | ROk _ => ROk (Some (from_ref k, c))
        | RErr _ => RErr (Some (from_ref k, c))
        end) = match r with ROk _ => ROk (Some (from_ref k, m)) | RErr _ => RErr (Some (from_ref k, m)) end).
  { intros g off m Ht Hf. destruct (group_eqb g (from_ref k)).
    - rewrite <- (Ht eq_refl). by destruct Hr as [-> | ->].
    - rewrite <- (Hf eq_refl), <- Ec. by destruct Hr as [-> | ->]. }
  unfold n. destruct rank as [[g c]|].
  - destruct Hi as (Hl & ->). apply Hcase; intros Eg.
    + apply eqb_true in Eg. rewrite (cnt_eq g (from_ref k) ls) by done.
      assert (length a = size (from_ref k) a); [|lia]. eapply (leaf_before k a x kvs'); [done|done|by exists z|].
      destruct Hl as (l' & y & El & Hy). rewrite El, <- app_assoc in Hs. apply gsorted_app in Hs as (_ & Hs & _).
      cbn [app] in Hs. apply gsorted_cons in Hs as [_ Hs]. apply Forall_cons in Hs as [Hs _].
      apply not_gt. intros Hgt. apply Hs. rewrite (ord_eq (gof y) g) by done. rewrite (ord_eq g (from_ref k)) by done. done.
    + rewrite cnt_absent; [done|]. assert (gsorted (concat ls)) as Hs0 by (apply gsorted_app in Hs; tauto).
      eapply (below_last _ _ g); [done|done|]. apply eqb_false_lt; [done|]. destruct Hl as (l' & y & El & Hy).
      rewrite El in H0. apply Forall_app in H0 as [_ H0]. apply Forall_cons in H0 as [H0 _].
      specialize (Hle _ H0). intros Hgt. apply Hle. rewrite (ord_eq (gof y) g) by done. done.
  - unfold rank_at in Hi. subst ls. cbn [concat] in *. rewrite cnt_nil. apply Hcase; [|done].
    intros Eg. apply eqb_true in Eg. rewrite Nat.add_0_r. eapply (leaf_before k a x kvs'); [done|done|by exists z|].
    by rewrite Eg.
Qed.

(** ** On reachable trees *)
Lemma kid'_of rl ri b' h' c : 1 <= rl -> shape rl ri b' h' c -> ascending (flat c) -> kid' c.
Proof.
  intros Hrl Hs Ha. split; [by eapply shape_flat_nonnil|]. split.
  - by eapply (aug_of_summary rl ri Hrl summ (group_summary nd)).
  - eapply haunt_tree; [done|by apply shape_nshape in Hs|done].
Qed.

Lemma shown b T l w : reachable (A:=group_count G) b T l -> tree_shows T w ->
  exists ri h t, 1 <= low b /\ InvAt (A:=group_count G) (low b) ri True T h t /\ flat t = l /\ ascending (flat t) /\
    h <= MAX_DEPTH /\ w = of_tr t /\ view_leaves w = tl t.
Proof.
  intros Hr Hw. destruct (reachable_any True b T l Hr (fun _ => group_key_aug nd)) as (ri & h & t & Hlow & Hri & HI & Ef & Ha & _ & Hh).
  exists ri, h, t. destruct (inv_shows (low b) ri True T h t HI) as (H1 & _).
  assert (w = of_tr t) as -> by (by eapply tree_shows_fun). rewrite of_tr_leaves. split_and!; try done; [lia|by rewrite Ef].
Qed.

Lemma max_group_exact_ok b T l w : reachable (A:=group_count G) b T l -> tree_shows T w ->
  match gc_max_group (t_aug T) with
  | None => l = []
  | Some (g, c) => (exists x, x ∈ l /\ kcmp (gof x) g = Eq) /\ (forall x, x ∈ l -> kcmp (gof x) g <> Gt) /\
      c = length (counted g (view_leaves w))
  end.
Proof.
  intros Hr Hw. destruct (shown b T l w Hr Hw) as (ri & h & t & Hlow & HI & <- & Ha & Hh & -> & ->).
  pose proof (root_haunt (low b) ri T h t Hlow HI) as H. destruct (gc_max_group (t_aug T)) as [[g c]|]; [|done].
  destruct H as [Hl ->]. split_and!; [|apply Forall_forall, gs_last_ge; [by apply asc_gsorted|done]|done].
  destruct Hl as (l' & x & -> & E). exists x. split; [|done]. apply elem_of_app. right. by apply elem_of_list_singleton.
Qed.

Lemma group_found_exact b T l w g i : reachable (A:=group_count G) b T l -> tree_shows T w ->
  match mjoin (counted g (view_leaves w) !! i) with
  | None => get_ref_by_augmentation T (g, i) = Ok None
  | Some kv => exists j, l !! j = Some kv /\ found b T l (g, i) j
  end.
Proof.
  intros Hr Hw. destruct (reachable_any True b T l Hr (fun _ => group_key_aug nd)) as (ri & h & t & Hlow & Hri & HI & <- & Ha & Hof & Hh).
  destruct (inv_shows (low b) ri True T h t HI) as (H1 & _).
  assert (w = of_tr t) as -> by (by eapply tree_shows_fun). rewrite of_tr_leaves.
  pose proof (group_ref_exact (low b) ri T h t g i ltac:(lia) HI Hh) as H. rewrite cpos_counted.
  rewrite flat_tl. destruct (cpos (tl t) g i) as [j|]; [|done].
  destruct H as (id & kvs & mA & mB & s1 & s2 & st & off & R & E & Ho & Hj).
  assert (found b T (concat (tl t)) (g, i) j) as Hfd. { rewrite <- flat_tl. by exists True, ri, h, t, id, kvs, mA, mB, s1, s2, st, off. }
  destruct (found_get _ _ _ _ _ Hfd) as (kv & Hkv & _). cbn. rewrite Hkv. by exists j.
Qed.

Lemma group_get_exact_ok b T l w g i : reachable (A:=group_count G) b T l -> tree_shows T w ->
  get_by_augmentation T (g, i) = Ok (mjoin (counted g (view_leaves w) !! i)).
Proof.
  intros Hr Hw. pose proof (group_found_exact b T l w g i Hr Hw) as H.
  destruct (mjoin (counted g (view_leaves w) !! i)) as [kv|].
  - destruct H as (j & Hj & H). destruct (found_get _ _ _ _ _ H) as (kv' & Hkv & ->). congruence.
  - unfold get_by_augmentation. by rewrite H.
Qed.

Lemma group_remove_exact_ok b T l w g i : reachable (A:=group_count G) b T l -> removal_ok (A:=group_count G) b l -> tree_shows T w ->
  exists T', remove_by_augmentation T (g, i) = Ok (mjoin (counted g (view_leaves w) !! i), T') /\
    match mjoin (counted g (view_leaves w) !! i) with
    | Some kv => exists j, l !! j = Some kv /\ reachable b T' (delete j l)
    | None => T' = T
    end.
Proof.
  intros Hr Ho Hw. pose proof (group_found_exact b T l w g i Hr Hw) as H.
  destruct (mjoin (counted g (view_leaves w) !! i)) as [kv|].
  - destruct H as (j & Hj & H). destruct (found_remove _ _ _ _ _ Hr Ho H) as (kv' & T' & E & Hkv & Hr'). exists T'.
    assert (kv' = kv) as -> by congruence. split; [done|]. by exists j.
  - exists T. unfold remove_by_augmentation. by rewrite H.
Qed.

Lemma group_extract_exact_ok b T l w g : reachable (A:=group_count G) b T l -> tree_shows T w ->
  descend_visit T (extract_group_size g) 0 =
  Ok (Some (length (counted g (earlier (view_leaves w))) + size g (final (view_leaves w)))).
Proof.
  intros Hr Hw. destruct (shown b T l w Hr Hw) as (ri & h & t & Hlow & HI & <- & Ha & Hh & -> & ->).
  rewrite (visit_ok (low b) ri _ _ h t 0 HI).
  rewrite (egs_walk_exact (low b) ri (rmin h) true h); [done|lia|apply HI|done].
Qed.

Lemma group_rank_exact_ok b T l w k : reachable (A:=group_count G) b T l -> tree_shows T w ->
  let ls := fst (remembered k w) in
  let n := length (counted (from_ref k : G) (earlier ls)) + group_rank_of (G:=G) k (final ls) in
  rank_by_augmentation T k = Ok (match spec_get (probe_key k) l with
    | Some _ => ROk (Some (from_ref k : G, n)) | None => RErr (Some (from_ref k : G, n)) end).
Proof.
  intros Hr Hw. destruct (shown b T l w Hr Hw) as (ri & h & t & Hlow & HI & <- & Hasc & Hh & -> & _).
  destruct (rank_path (low b) ri T h t k HI) as (path & id & kvs & mA & mB & s1 & s2 & st & r & R & FA & FB & Hlen & Ep & Hsh & Hx & (Epath & Eleaf) & ->).
  cbn [fold_leaf initial_value fault_group_rank group_rank].
  assert (flat t = elems mA ++ kvs ++ elems mB) as Ef.
  { by rewrite <- elems_trav, (reach_trav _ _ _ _ _ _ _ _ R), !elems_app, elems_emark. }
  assert (gsorted (elems mA ++ kvs)) as Hs.
  { pose proof (asc_gsorted _ Hasc) as Hs. rewrite Ef, app_assoc in Hs. by apply gsorted_app in Hs as [Hs _]. }
  assert (Forall kid' (concat path)) as Hk.
  { apply Forall_forall. intros c Hc. rewrite Forall_forall in Hsh. destruct (Hsh c Hc) as (b' & h' & Hh' & Hs').
    assert (exists u v, elems mA = u ++ flat c ++ v) as (u & v & Eu).
    { apply elem_of_list_split in Hc as (p1 & p2 & Ec). rewrite <- Ep, Ec, map_app, concat_app. simpl. eauto. }
    rewrite Ef, Eu, <- !app_assoc in Hasc. eapply kid'_of; [exact Hlow|exact Hs'|].
    apply asc_app in Hasc as [_ Hasc]. by apply asc_app in Hasc as [Hasc _]. }
  assert (gsorted (elems mA)) as HsA by (apply gsorted_app in Hs; tauto).
  assert (gsorted (concat ([] ++ tls (concat path)))) as HsP by (cbn [app]; by rewrite <- flat_tls, Ep).
  pose proof (kept_exact k path None [] Hk HsP eq_refl) as Hf.
  destruct (kept_part path []) as [p Hp]. cbn [app] in Hp. rewrite <- flat_tls, Ep in Hp.
  assert (kvs = [] -> kept path [] = []) as Hnil.
  { intros ->. destruct h as [|h].
    - by destruct path.
    - pose proof (nshape_nonempty (low b) ri ltac:(lia) _ _ _ _ (inv_shape _ _ _ _ _ _ HI)) as Hne.
      destruct (reach_seq _ _ _ _ _ _ _ _ R) as (Eseq & _). rewrite Eseq in Hne. apply Forall_app in Hne as [_ Hne].
      by apply Forall_cons in Hne as [Hne _]. }
  assert (exists a z : list entry, kvs = a ++ z /\ Forall (fun x => kcmp x.1 k = Lt) a /\ Forall (fun x => kcmp x.1 k <> Lt) z /\
    ((r = ROk (length a) /\ kvs <> [] /\ exists w : V, spec_get (probe_key k) (flat t) = Some w) \/
      r = RErr (length a) /\ spec_get (probe_key k) (flat t) = None)) as (a & z & Hkv & Ha & Hz & Hrr).
  { rewrite Ef. rewrite spec_get_mid by (eapply Forall_impl; [done|]; unfold probe_key; simpl; intros ? ->; done).
    destruct r as [i|i].
    - destruct Hx as (a & k' & v & b' & -> & -> & Ha & Hkk & Hb). exists a, ((k', v) :: b'). split; [done|]. split; [done|].
      split; [constructor; [simpl; by rewrite Hkk|eapply Forall_impl; [exact Hb|]; simpl; intros ? ->; done]|]. left.
      split; [done|]. split; [by destruct a|]. rewrite (proj2 (spec_remove_hit (probe_key k) a k' v b' Ha Hkk)). eauto.
    - destruct Hx as (a & b' & -> & -> & Ha & Hb). exists a, b'. split; [done|]. split; [done|].
      split; [eapply Forall_impl; [exact Hb|]; simpl; intros ? ->; done|]. right. split; [done|].
      apply (spec_none (probe_key k)). apply Forall_app; split; eapply Forall_impl; [exact Ha| |exact Hb|]; unfold probe_key; simpl; intros ? ->; done. }
  assert (r = ROk (length a) \/ r = RErr (length a)) as Hr1 by (destruct Hrr as [(-> & _) | (-> & _)]; auto).
  assert (kvs = [] -> r = RErr (length a) /\ kept path [] = []) as Hr2.
  { intros E. split; [|auto]. destruct Hrr as [(_ & ? & _) | (-> & _)]; done. }
  assert (gsorted (concat (kept path []) ++ kvs)) as Hs2.
  { rewrite Hp, <- app_assoc in Hs. apply gsorted_app in Hs. tauto. }
  assert (Forall (fun x => kcmp x.1 k = Lt) (concat (kept path []))) as FA2.
  { rewrite Hp in FA. by apply Forall_app in FA as [_ FA]. }
  pose proof (fold_leaf_exact k _ (kept path []) kvs a z r Hs2 Hkv FA2 Ha Hr1 Hr2 Hf) as Hn. cbv zeta in Hn.
  assert (fst (remembered k (of_tr t)) = kept path [] ++ [kvs]) as ->.
  { rewrite Epath, Eleaf, (remembered_ok (low b) ri (rmin h) true h k t [] (inv_shape _ _ _ _ _ _ HI)).
    destruct (remembered k (of_tr t)) as [? []]; done. }
  assert (earlier (kept path [] ++ [kvs]) = kept path []) as -> by (unfold earlier; by apply removelast_last).
  assert (final (kept path [] ++ [kvs]) = kvs) as -> by (unfold final; by rewrite last_snoc).
  assert (group_rank_of (G:=G) k kvs = size (from_ref k) a) as ->.
  { rewrite Hkv, !grank_app, (grank_lt k a), (grank_ge k z) by done. lia. }
  unfold keysof. cbn [initial_value fold_leaf fault_group_rank group_rank]. unfold cnt in Hn. rewrite Hn.
  destruct Hrr as [(-> & _ & x & ->) | (-> & ->)]; done.
Qed.

(** ** When nothing is miscounted *)
Lemma number_le l : number l <= length l.
Proof. induction l as [|x l IH]; [done|]. rewrite number_cons. simpl. destruct (existsb _ _); lia. Qed.
Lemma size_pos g l : existsb (in_group g) l = true <-> 1 <= size g l.
Proof.
  induction l as [|x l IH]; [split; [done|rewrite size_nil; lia]|]. rewrite size_cons. simpl. destruct (in_group g x); simpl; [split; [lia|done]|]. done.
Qed.
Lemma number_all l : number l = length l <-> forall x, x ∈ l -> size (gof x) l = 1.
Proof.
  induction l as [|x l IH]; [split; [intros _ x Hx; by apply elem_of_nil in Hx|done]|].
  assert (in_group (gof x) x = true) as Hxx by (apply in_group_true, ord_refl).
  rewrite number_cons. cbn [length]. pose proof (number_le l) as Hle. split.
  - intros H. destruct (existsb (in_group (gof x)) l) eqn:E; [lia|].
    assert (size (gof x) l = 0) as H0. { destruct (size (gof x) l) eqn:Es; [done|]. assert (existsb (in_group (gof x)) l = true); [|congruence]. apply size_pos. lia. }
    assert (number l = length l) as Hn by lia. rewrite IH in Hn. intros y Hy. rewrite size_cons.
    apply elem_of_cons in Hy as [-> |Hy]; [by rewrite Hxx, H0|]. specialize (Hn y Hy).
    destruct (in_group (gof y) x) eqn:Ey; [|done]. apply in_group_true in Ey. exfalso.
    rewrite (size_eq (gof y) (gof x)) in Hn by (by apply kcmp_eq_sym). lia.
  - intros H. assert (size (gof x) l = 0) as H0.
    { specialize (H x ltac:(by left)). rewrite size_cons, Hxx in H. lia. }
    destruct (existsb (in_group (gof x)) l) eqn:E; [apply size_pos in E; lia|].
    assert (number l = length l) as ->; [|done]. apply IH. intros y Hy. specialize (H y ltac:(by right)). rewrite size_cons in H.
    destruct (in_group (gof y) x) eqn:Ey; [|done]. apply in_group_true in Ey. exfalso.
    assert (1 <= size (gof y) l) as Hy1.
    { apply size_pos. apply existsb_exists. exists y. split; [by apply elem_of_list_In|apply in_group_true, ord_refl]. }
    lia.
Qed.

Lemma size_filter g (f : entry -> bool) l : (forall x, in_group g x = true -> f x = true) -> size g (List.filter f l) = size g l.
Proof.
  intros H. induction l as [|x l IH]; [done|]. simpl. rewrite size_cons. destruct (f x) eqn:E.
  - by rewrite size_cons, IH.
  - destruct (in_group g x) eqn:Eg; [|done]. by rewrite (H x Eg) in E.
Qed.

Lemma ghosts_none leaf : gsorted leaf -> (forall g, ghosts g leaf = 0) <-> single_inside (G:=G) leaf.
Proof.
  intros Hs. unfold single_inside. destruct leaf as [|f leaf0]; [split; [intros _ x Hx; by apply elem_of_nil in Hx|done]|].
  destruct (list.last (f :: leaf0)) as [zz|] eqn:El; [|by apply last_None in El].
  assert (forall g x, in_group g x = true -> in_group g zz = true -> in_group (gof x) zz = true) as Hzx.
  { intros g x H1 H2. apply in_group_true in H1, H2. apply in_group_true. rewrite (ord_eq (gof zz) g) by done. by apply kcmp_eq_sym. }
  assert (forall x y, in_group (gof x) y = in_group (gof y) x) as Hsym.
  { intros x y. unfold in_group. rewrite (ord_sym (gof x) (gof y)). by destruct (kcmp (gof x) (gof y)). }
  assert (forall x y g, in_group (gof y) x = true -> in_group g x = in_group g y) as Htr.
  { intros x y g H. apply in_group_true in H. unfold in_group. by rewrite (ord_eq (gof x) (gof y)) by done. }
  assert (forall g, in_group g f = false -> forall x, x ∈ between g (f :: leaf0) -> size (gof x) (between g (f :: leaf0)) = size (gof x) (f :: leaf0)) as Hb.
  { intros g _ x Hx. unfold between in *. apply elem_of_list_In, filter_In in Hx as [_ Hx]. apply andb_true_iff in Hx as [Hx1 Hx2].
    apply size_filter. intros y Hy. by rewrite !(Htr y x _ Hy), Hx1, Hx2. }
  split.
  - intros H x Hx. destruct (in_group (gof x) f) eqn:Ef; [right; left; by exists f|].
    destruct (in_group (gof x) zz) eqn:Ez; [right; right; by exists zz|]. left.
    specialize (H (gof zz)). unfold ghosts in H. rewrite El in H.
    assert (in_group (gof zz) zz = true) as Hzz by (apply in_group_true, ord_refl). rewrite Hzz in H.
    destruct (in_group (gof zz) f) eqn:Efz.
    + (* the first and the last entry are of one group: so is x *)
      exfalso. apply last_Some in El as [l' El].
      assert (in_group (gof zz) x = true) as Hc; [|rewrite Hsym in Hc; congruence].
      assert (last_is (f :: leaf0) (gof zz)) as Hl. { exists l', zz. split; [done|]. apply ord_refl. }
      pose proof (gs_last_ge _ _ Hs Hl) as F. rewrite Forall_forall in F. specialize (F x Hx). simpl in F.
      assert (first_is (f :: leaf0) (gof f)) as Hf. { exists f, leaf0. split; [done|]. apply ord_refl. }
      pose proof (gs_first_le _ _ Hs Hf) as F2. rewrite Forall_forall in F2. specialize (F2 x Hx). simpl in F2.
      apply in_group_true in Efz. apply in_group_true. apply le_antisym; [done|].
      rewrite <- (ord_eq (gof f) (gof zz)) by done. done.
    + cbn [andb negb] in H. pose proof (number_le (between (gof zz) (f :: leaf0))) as Hle.
      assert (number (between (gof zz) (f :: leaf0)) = length (between (gof zz) (f :: leaf0))) as Hn by lia.
      rewrite <- (Hb (gof zz) Efz x).
      * apply number_all; [done|]. unfold between. apply elem_of_list_In, filter_In. split; [by apply elem_of_list_In|].
        rewrite (Hsym f x), Ef, (Hsym zz x), Ez. done.
      * unfold between. apply elem_of_list_In, filter_In. split; [by apply elem_of_list_In|].
        rewrite (Hsym f x), Ef, (Hsym zz x), Ez. done.
  - intros H g. unfold ghosts. rewrite El. destruct (in_group g zz) eqn:Ez; [|done]. destruct (in_group g f) eqn:Ef; [done|]. cbn [andb negb].
    assert (number (between g (f :: leaf0)) = length (between g (f :: leaf0))) as ->; [|lia].
    apply number_all. intros x Hx. rewrite (Hb g Ef x Hx). unfold between in Hx. apply elem_of_list_In, filter_In in Hx as [Hin Hx].
    apply andb_true_iff in Hx as [Hx1 Hx2]. apply negb_true_iff in Hx1, Hx2.
    destruct (H x ltac:(by apply elem_of_list_In)) as [H1|[(y & Hy & H1)|(y & Hy & H1)]]; [done| |]; exfalso.
    + injection Hy as <-. rewrite Hsym in H1. congruence.
    + injection Hy as <-. rewrite <- (Htr zz x g H1) in Hx2. congruence.
Qed.

Lemma counted_right g ls : (counted g ls = map Some (group_members g (concat ls))) <-> Forall (fun leaf => ghosts g leaf = 0) ls.
Proof.
  induction ls as [|leaf ls IH]; [done|]. unfold counted in *. cbn [map concat]. rewrite Forall_cons, <- IH. unfold counted_in at 1.
  assert (group_members g (leaf ++ concat ls) = group_members g leaf ++ group_members g (concat ls)) as -> by apply List.filter_app.
  rewrite map_app, <- app_assoc. split.
  - intros H. apply app_inv_head in H. destruct (ghosts g leaf) as [|n]; [done|]. exfalso.
    cbn [repeat app] in H. by destruct (group_members g (concat ls)).
  - intros [-> ->]. done.
Qed.

Lemma counts_right_ok b T l w : reachable (A:=group_count G) b T l -> tree_shows T w ->
  (forall g, counted g (view_leaves w) = map Some (group_members g l)) <->
  (forall leaf, leaf ∈ view_leaves w -> single_inside (G:=G) leaf).
Proof.
  intros Hr Hw. destruct (shown b T l w Hr Hw) as (ri & h & t & Hlow & HI & <- & Hasc & Hh & -> & ->).
  rewrite flat_tl in Hasc |- *.
  assert (forall leaf, leaf ∈ tl t -> gsorted leaf) as Hgs.
  { intros leaf Hin. apply asc_gsorted. by eapply asc_concat. }
  split.
  - intros H leaf Hin. apply ghosts_none; [by apply Hgs|]. intros g. specialize (H g). apply counted_right in H.
    rewrite Forall_forall in H. by apply H.
  - intros H g. apply counted_right, Forall_forall. intros leaf Hin. apply ghosts_none; [by apply Hgs|by apply H].
Qed.
End GroupFaultProof.
