(** Threads sharing a tree get the answers they would get alone. *)
From stdpp Require Import list sorting relations.
From Verif Require Import RemoveTop  Base Slots BinSearch LeafNode InnerNode Store Tree Remove Iterators Observe Cursor Augment BulkLoad
  History Readers Shared SharedSpec SlotLemmas NodeLemmas Spec AugSpec Contents Order ContentsProof Logical Descent InsertProof InvLemmas InsertTop
  Lookup CursorProof IterProof HistProof HistTop MapTop ReadTop.

Section SharedProof.
Context {K V A : Type} {KO : KeyOps K} {PF : Profile} {OL : OrdLaws K} {AO : AugOps K V A}.
Notation tree := (tree K V A).
Notation tr := (tr K V).
Notation cursor := (cursor K).

Lemma descend_cache (T : tree) w fuel n p :
  descend_to_leaf fuel (t_store (with_cache T w)) n p = descend_to_leaf fuel (t_store T) n p.
Proof.
  revert n. induction fuel as [|fuel IH]; intros [id|id]; try done. cbn [descend_to_leaf].
  change (get_inner (t_store (with_cache T w)) id) with (get_inner (t_store T) id).
  destruct (get_inner (t_store T) id) as [n| | | |]; try done. rewrite !obind_Ok.
  destruct (inner_locate_child n p) as [[i c]| | | |]; try done. rewrite !obind_Ok. apply IH.
Qed.

Section Inv.
Context (rl ri : nat) (Hrl : 1 <= rl) (T : tree) (h : nat) (t : tr) (HI : InvAt (A:=A) rl ri False T h t).

Lemma inv_with_cache w : InvAt (A:=A) rl ri False (with_cache T w) h t.
Proof. by apply inv_cache. Qed.

Lemma locate_cache w k : locate_leaf (with_cache T w) k = locate_leaf T k.
Proof.
  destruct (place_exists rl ri False Hrl T h t k HI) as (id & a & m & b & eA & eB & pv & nx & _ & Hd & Hl & _).
  destruct (place_exists rl ri False Hrl _ h t k (inv_with_cache w)) as (id' & a' & m' & b' & eA' & eB' & pv' & nx' & _ & Hd' & Hl' & _).
  rewrite Hl, Hl'. change (descend_fuel (t_store (with_cache T w))) with (descend_fuel (t_store T)) in Hd'.
  change (t_root (with_cache T w)) with (t_root T) in Hd'. rewrite descend_cache, Hd in Hd'. congruence.
Qed.
Lemma cursor_locate_cache w c : cursor_locate_leaf (with_cache T w) c = cursor_locate_leaf T c.
Proof. unfold cursor_locate_leaf. rewrite locate_cache. done. Qed.

Lemma first_leaf_cache w : first_leaf (with_cache T w) = first_leaf T.
Proof.
  destruct (first_leaf_ok rl ri False Hrl _ h t (inv_with_cache w)) as (i & kv & rs & Es & ->).
  destruct (first_leaf_ok rl ri False Hrl _ h t HI) as (i' & kv' & rs' & Es' & ->). congruence.
Qed.
Lemma last_leaf_cache w : last_leaf (with_cache T w) = last_leaf T.
Proof.
  destruct (last_leaf_ok rl ri False Hrl _ h t (inv_with_cache w)) as (i & kv & rs & Es & ->).
  destruct (last_leaf_ok rl ri False Hrl _ h t HI) as (i' & kv' & rs' & Es' & ->).
  rewrite Es in Es'. apply app_inj_tail in Es' as [_ E]. congruence.
Qed.

(** ** Calls *)
Lemma call_same c : call_ok (flat t) c -> exists r, forall w, call (with_cache T w) c = Ok r.
Proof.
  intros Hc. destruct c as [c|c|c|k| | | | | | |]; cbn [call].
  - destruct (cursor_next_ok rl ri False Hrl T h t c HI) as (r & E & _). exists (XCursor r). intros w.
    assert (cursor_next_with_value (with_cache T w) c = Ok r) as ->; [|done]. rewrite <- E.
    unfold cursor_next_with_value. by rewrite cursor_locate_cache.
  - destruct (cursor_prev_ok rl ri False Hrl T h t c HI) as (r & E & _). exists (XCursor r). intros w.
    assert (cursor_prev_with_value (with_cache T w) c = Ok r) as ->; [|done]. rewrite <- E.
    unfold cursor_prev_with_value. by rewrite cursor_locate_cache.
  - exists (XVal (spec_get (probe_key (c_key c)) (flat t))). intros w.
    by rewrite (cursor_value_ok rl ri False Hrl _ h t c (inv_with_cache w)).
  - destruct (get_cursor_ok rl ri False Hrl T h t k HI) as (c & E & _). eexists. intros w.
    assert (get_cursor (with_cache T w) k = get_cursor T k) as ->; [|rewrite E; by rewrite obind_Ok].
    unfold get_cursor. by rewrite descend_cache.
  - destruct (cursor_first_ok rl ri False Hrl T h t HI Hc) as (r & E & _). exists (XCursor (Some r)). intros w.
    assert (cursor_first_with_value (with_cache T w) = Ok (Some r)) as ->; [|done]. rewrite <- E.
    unfold cursor_first_with_value. by rewrite first_leaf_cache.
  - destruct (cursor_last_ok rl ri False Hrl T h t HI Hc) as (r & E & _). exists (XCursor (Some r)). intros w.
    assert (cursor_last_with_value (with_cache T w) = Ok (Some r)) as ->; [|done]. rewrite <- E.
    unfold cursor_last_with_value. by rewrite last_leaf_cache.
  - exists (XEntry (head (flat t))). intros w. by rewrite (first_ok rl ri False Hrl _ h t (inv_with_cache w)).
  - exists (XEntry (list.last (flat t))). intros w. by rewrite (last_ok rl ri False Hrl _ h t (inv_with_cache w)).
  - by exists (XNum (t_len T)).
  - exists (XList (flat t)). intros w. by rewrite (entries_ok rl ri False Hrl _ h t (inv_with_cache w)).
  - exists (XList (rev (flat t))). intros w. by rewrite (entries_rev_ok rl ri False Hrl _ h t (inv_with_cache w)).
Qed.

Lemma get_same w p : probe_ok p -> exists w', get (with_cache T w) p = Ok (spec_get p (flat t), with_cache T w').
Proof.
  intros Hp. destruct (get_ok rl ri False Hrl _ h t p ord_true (inv_with_cache w) Hp) as (w' & E & _). exists w'. by rewrite E.
Qed.
Lemma alone_same {R} (P : prog K V R) : prog_ok (flat t) P -> exists r, forall w, run_alone (with_cache T w) P = Ok r.
Proof.
  induction 1 as [r|p k Hp _ IH|c k Hc _ IH]; cbn [run_alone].
  - by exists r.
  - destruct (IH (spec_get p (flat t))) as [r E]. exists r. intros w. destruct (get_same w p Hp) as [w' ->]. by rewrite obind_Ok.
  - destruct (call_same c Hc) as [x Ex]. destruct (IH x) as [r E]. exists r. intros w. rewrite Ex, obind_Ok. done.
Qed.

(** ** Threads *)
(** the thread will return [r] *)
Definition fine {R} (r : R) (th : thread K V R) : Prop :=
  match th with
  | ThRun P => prog_ok (flat t) P /\ forall w, run_alone (with_cache T w) P = Ok r
  | ThMiss p k => probe_ok p /\ (forall x, prog_ok (flat t) (k x)) /\
      forall w, run_alone (with_cache T w) (k (spec_get p (flat t))) = Ok r
  | ThLeaf p id k => (probe_ok p /\ (forall x, prog_ok (flat t) (k x)) /\
      forall w, run_alone (with_cache T w) (k (spec_get p (flat t))) = Ok r) /\
      find_in_leaf (t_store T) id p = Ok (spec_get p (flat t))
  | ThCrash => False
  end.

Lemma probe_places p : probe_ok p -> exists id, find_in_leaf (t_store T) id p = Ok (spec_get p (flat t)) /\
  descend_to_leaf (descend_fuel (t_store T)) (t_store T) (t_root T) p = Ok id /\
  forall w, check_cache (t_store T) w p = Ok None \/ check_cache (t_store T) w p = Ok (Some id).
Proof.
  intros Hp. destruct (home_exists rl ri False T h t p HI (fun _ => Hp)) as (id & kvs & mA & mB & s1 & s2 & st & Hm).
  exists id. split; [by apply (find_in_leaf_ok rl ri False _ _ _ _ _ _ _ _ _ _ _ ord_true HI Hp Hm)|].
  split; [by apply (descend_home _ _ _ _ _ _ _ _ _ _ _ _ _ _ HI Hm)|].
  intros w. by apply (check_cache_ok rl ri False Hrl _ _ _ _ _ _ _ _ _ _ _ w ord_true HI Hm).
Qed.

Lemma step_fine {R} (r : R) seen th seen' th' : thread_step T seen th seen' th' -> fine r th -> fine r th'.
Proof.
  intros Hst Hf.
  assert (forall p k, fine r (ThRun (PGet p k)) -> probe_ok p /\ (forall x, prog_ok (flat t) (k x)) /\
      forall w, run_alone (with_cache T w) (k (spec_get p (flat t))) = Ok r) as Hget.
  { intros p k [Hok Hr]. inversion Hok as [|? ? Hp Hk|]; subst. split; [done|]. split; [done|]. intros w.
    destruct (alone_same (k (spec_get p (flat t))) (Hk _)) as [r' E]. rewrite E. rewrite <- (Hr w). cbn [run_alone].
    destruct (get_same w p Hp) as [w' ->]. rewrite obind_Ok. by rewrite E. }
  destruct Hst as [seen p k w id Hw E|seen p k w Hw E|seen p k w Hw E|seen p k id E|seen p k E|seen p k id x E|seen p k id E
    |seen c k w x Hw E|seen c k w Hw E].
  - apply Hget in Hf. split; [done|]. destruct (probe_places p (proj1 Hf)) as (id' & F & _ & C).
    destruct (C w) as [C'|C']; rewrite E in C'; [done|]. injection C' as ->. done.
  - by apply Hget in Hf.
  - apply Hget in Hf. destruct (probe_places p (proj1 Hf)) as (id' & _ & _ & C). destruct (C w) as [C'|C']; by apply E in C'.
  - split; [done|]. destruct (probe_places p (proj1 Hf)) as (id' & F & D & _). rewrite E in D. injection D as ->. done.
  - destruct (probe_places p (proj1 Hf)) as (id' & F & D & _). by apply E in D.
  - destruct Hf as [(Hp & Hk & Hr) F]. rewrite E in F. injection F as ->. split; [done|]. done.
  - destruct Hf as [_ F]. by apply E in F.
  - destruct Hf as [Hok Hr]. inversion Hok as [| |? ? Hc Hk]; subst. destruct (call_same c Hc) as [x' Ex].
    rewrite Ex in E. injection E as ->. split; [done|]. intros w'. specialize (Hr w'). cbn [run_alone] in Hr.
    by rewrite Ex, obind_Ok in Hr.
  - destruct Hf as [Hok Hr]. inversion Hok as [| |? ? Hc Hk]; subst. destruct (call_same c Hc) as [x' Ex]. by apply E in Ex.
Qed.

Lemma step_exists {R} (r : R) seen th : seen <> [] -> fine r th -> (forall x, th <> ThRun (PRet x)) ->
  exists seen' th', thread_step T seen th seen' th'.
Proof.
  intros Hne Hf Hnd. destruct seen as [|w seen]; [done|]. destruct th as [[x|p k|c k]|p k|p id k|].
  - by destruct (Hnd x).
  - destruct Hf as [Hok _]. inversion Hok as [|? ? Hp Hk|]; subst. destruct (probe_places p Hp) as (id' & _ & _ & C).
    destruct (C w) as [E|E]; eexists _, _; [eapply th_miss|eapply th_hit]; try done; left.
  - destruct Hf as [Hok _]. inversion Hok as [| |? ? Hc Hk]; subst. destruct (call_same c Hc) as [x' Ex].
    eexists _, _. eapply th_call; [left|done].
  - destruct Hf as [Hp _]. destruct (probe_places p Hp) as (id' & _ & D & _). eexists _, _. by eapply th_descend.
  - destruct Hf as [_ F]. eexists _, _. by eapply th_read.
  - done.
Qed.

Lemma steps_fine {R} (rs : list R) st st' : rtc (threads_step T) st st' -> Forall2 fine rs st.2 ->
  Forall2 fine rs st'.2 /\ (st.1 <> [] -> st'.1 <> []).
Proof.
  intros Hst. induction Hst as [st|st st1 st2 H1 Hst IH]; intros Hf; [done|].
  destruct H1 as [seen seen' i ths th th' Hi H1]. cbn [fst snd] in *.
  destruct (Forall2_lookup_r _ _ _ _ _ Hf Hi) as (r & Hr & Hth).
  destruct IH as [G1 G2].
  - rewrite <- (list_insert_id rs i r) by done. apply Forall2_insert; [done|]. by eapply step_fine.
  - split; [done|]. intros Hne. apply G2. by destruct H1.
Qed.
End Inv.

(** ** Every schedule comes to an end *)
Section Wf.
Context {R : Type} (T : tree).
Definition th_before (th' th : thread K V R) : Prop := exists seen seen', thread_step T seen th seen' th'.
Definition ths_before (ths' ths : list (thread K V R)) : Prop :=
  exists i th th', ths !! i = Some th /\ th_before th' th /\ ths' = <[i := th']> ths.

Lemma th_acc th : Acc th_before th.
Proof.
  assert (Acc th_before ThCrash) as Hc.
  { constructor. intros th' (s & s' & H). inversion H. }
  assert (forall P, Acc th_before (ThRun P)) as Hrun.
  { induction P as [r|p k IH|c k IH].
    - constructor. intros th' (s & s' & H). inversion H.
    - assert (forall id, Acc th_before (ThLeaf p id k)) as Hl.
      { intros id. constructor. intros th' (s & s' & H). inversion H; subst; [apply IH|done]. }
      constructor. intros th' (s & s' & H). inversion H; subst; [apply Hl| |done].
      constructor. intros th' (s1 & s1' & H1). inversion H1; subst; [apply Hl|done].
    - constructor. intros th' (s & s' & H). inversion H; subst; [apply IH|done]. }
  destruct th as [P|p k|p id k|]; [apply Hrun| | |done].
  - constructor. intros th' (s & s' & H). inversion H; subst; [|done].
    constructor. intros th' (s1 & s1' & H1). inversion H1; subst; [apply Hrun|done].
  - constructor. intros th' (s & s' & H). inversion H; subst; [apply Hrun|done].
Qed.
Lemma ths_acc ths : Acc ths_before ths.
Proof.
  induction ths as [|th ths IH].
  { constructor. intros ths' (i & x & y & H & _). done. }
  revert ths IH. induction (th_acc th) as [th _ IHt]. intros ths IH. induction IH as [ths Ha IHs].
  constructor. intros ths' (i & x & y & H & Hb & ->). destruct i as [|i]; simpl in *.
  - injection H as <-. apply IHt; [done|]. by constructor.
  - apply IHs. by exists i, x, y.
Qed.
Lemma threads_acc st : Acc (flip (threads_step (R:=R) T)) st.
Proof.
  destruct st as [seen ths]. revert seen. induction (ths_acc ths) as [ths _ IH]. intros seen. constructor.
  intros [seen' ths'] H. inversion H as [? ? i ? th th' Hi Hst]; subst. apply IH. exists i, th, th'. split; [done|].
  split; [by eexists _, _|done].
Qed.
End Wf.

(** ** What a program run alone returns *)
Lemma call_right b (T : tree) l c : reachable b T l -> call_ok l c -> exists x, call T c = Ok x /\ call_means l c x.
Proof.
  intros Hr Hc. destruct c as [c|c|c|k| | | | | | |]; cbn [call call_ok] in *.
  - destruct (cursor_next_top b T l c Hr) as (r & -> & H). by eexists.
  - destruct (cursor_prev_top b T l c Hr) as (r & -> & H). by eexists.
  - destruct (cursor_value_top b T l c Hr) as (r & -> & H & _). by eexists.
  - destruct (get_cursor_top b T l k Hr) as (c & r & -> & H). by eexists.
  - destruct (cursor_ends_top b T l Hr Hc) as (c & v & d & w & -> & H & _). by eexists.
  - destruct (cursor_ends_top b T l Hr Hc) as (c & v & d & w & _ & _ & -> & H & _). by eexists.
  - destruct (reachable_ends b T l Hr) as (f & z & -> & H & _). by eexists.
  - destruct (reachable_ends b T l Hr) as (f & z & _ & _ & -> & H). by eexists.
  - eexists. split; [done|]. apply (reachable_len b T l Hr).
  - destruct (reachable_entries b T l Hr) as [-> _]. by eexists.
  - destruct (reachable_any False b T l Hr) as (ri & h & t & Hlow & _ & HI & <- & Ha & _); [done|].
    rewrite (entries_rev_ok (low b) ri False ltac:(lia) T h t HI). by eexists.
Qed.

Lemma alone_right {R} b (T : tree) l (P : prog K V R) : reachable b T l -> prog_ok l P ->
  exists r, run_alone T P = Ok r /\ means l P r.
Proof.
  intros Hr. destruct (reachable_any False b T l Hr) as (ri & h & t & Hlow & _ & HI & <- & Ha & _); [done|].
  assert (1 <= low b) as Hl1 by lia.
  assert (T = with_cache T (cached (t_store T))) as ET by (unfold with_cache; by rewrite with_store_id).
  induction 1 as [r|p k Hp Hk IH|c k Hc _ IH].
  - exists r. split; [done|constructor].
  - destruct (IH (spec_get p (flat t))) as (r & E & Hm). exists r. split; [|econstructor; [apply spec_get_lookup|done]].
    cbn [run_alone]. destruct (get_same (low b) ri Hl1 T h t HI (cached (t_store T)) p Hp) as [w E1]. rewrite <- ET in E1.
    rewrite E1, obind_Ok. destruct (alone_same (low b) ri Hl1 T h t HI _ (Hk (spec_get p (flat t)))) as [r' E2].
    rewrite E2. rewrite ET, E2 in E. done.
  - destruct (call_right b T (flat t) c Hr Hc) as (x & E & Hx). destruct (IH x) as (r & Er & Hm). exists r.
    split; [|by econstructor]. cbn [run_alone]. by rewrite E, obind_Ok.
Qed.

Lemma shared_top {R} b (T : tree) l w (Ps : list (prog K V R)) seen ths : reachable b T l -> Forall (prog_ok l) Ps ->
  rtc (threads_step T) ([w], map ThRun Ps) (seen, ths) ->
  length ths = length Ps /\
  (forall i P r, Ps !! i = Some P -> ths !! i = Some (ThRun (PRet r)) ->
    run_alone T P = Ok r /\ means l P r) /\
  (forall i th, ths !! i = Some th -> th <> ThCrash /\
    ((exists r, th = ThRun (PRet r)) \/ exists seen' th', thread_step T seen th seen' th')) /\
  Acc (flip (threads_step T)) (seen, ths).
Proof.
  intros Hr HP Hst. destruct (reachable_any False b T l Hr) as (ri & h & t & Hlow & _ & HI & <- & Ha & _); [done|].
  assert (1 <= low b) as Hl1 by lia.
  assert (exists rs, Forall2 (fine T t) rs (map ThRun Ps)) as [rs Hrs].
  { clear Hst. induction HP as [|P Ps Hok _ [rs IH]]; [exists []; constructor|].
    destruct (alone_same (low b) ri Hl1 T h t HI P Hok) as [r E]. exists (r :: rs). constructor; [by split|done]. }
  destruct (steps_fine (low b) ri Hl1 T h t HI rs _ _ Hst Hrs) as [Hf Hne]. cbn [fst snd] in *.
  specialize (Hne ltac:(done)).
  split; [|split; [|split; [|apply threads_acc]]].
  - rewrite <- (Forall2_length _ _ _ Hf), (Forall2_length _ _ _ Hrs). by rewrite map_length.
  - intros i P r Hi Hth.
    assert (run_alone T P = Ok r) as E; [|split; [done|];
      destruct (alone_right b T (flat t) P Hr) as (r' & E' & Hm); [by rewrite Forall_lookup in HP; eapply HP|];
      rewrite E in E'; by injection E' as ->].
    destruct (Forall2_lookup_r _ _ _ _ _ Hf Hth) as (r' & Hr' & _ & E).
    specialize (E (cached (t_store T))). cbn [run_alone] in E. injection E as ->.
    assert (map ThRun Ps !! i = Some (ThRun P)) as Hm.
    { change (map ThRun Ps) with (ThRun <$> Ps). by rewrite list_lookup_fmap, Hi. }
    destruct (Forall2_lookup_lr _ _ _ _ _ _ Hrs Hr' Hm) as [_ E]. specialize (E (cached (t_store T))).
    unfold with_cache in E. by rewrite with_store_id in E.
  - intros i th Hi. destruct (Forall2_lookup_r _ _ _ _ _ Hf Hi) as (r' & Hr' & Hth). split; [by intros ->|].
    destruct th as [[x|p k|c k]|p k|p id k|]; [by left; eauto|..]; right;
      (eapply (step_exists (low b) ri Hl1 T h t HI r'); [done|exact Hth|done]).
Qed.
End SharedProof.
