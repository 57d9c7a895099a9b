(** How often a call compares keys. *)
From stdpp Require Import list sorting.
From Verif Require Import Base Slots BinSearch LeafNode InnerNode Store Tree Remove Iterators Observe Cursor
  BulkLoad InsertParts Volatile History SlotLemmas NodeLemmas Spec AugSpec AnySpec Order Logical Descent InsertProof InvLemmas InsertTop
  RemoveLeaf RemoveInner RemoveProof RemoveTop Lookup IterProof IntoProof BulkProof HistTop AnyProof VolatileSpec VolatileProof CostSpec.

Section Tracks.
Context {W : Type}.
(** [m] does what [m'] does and counts at most [b] comparisons; it returns a [Q]. *)
Definition tracks {X} (m : comp (W * nat) X) (m' : comp W X) (b : nat) (Q : X -> Prop) : Prop :=
  forall w n r w', m' w = Ok (r, w') ->
    exists k, m (w, n) = Ok (r, (w', n + k)) /\ k <= b /\ match r with Some x => Q x | None => True end.

Lemma tracks_ret {X} (x : X) (Q : X -> Prop) : Q x -> tracks (cret x) (cret x) 0 Q.
Proof. intros H w n r w' [= <- <-]. exists 0. rewrite Nat.add_0_r. done. Qed.
Lemma tracks_lift {X} (e : outcome X) : tracks (clift e) (clift e) 0 (fun x => e = Ok x).
Proof.
  intros w n r w'. unfold clift. destruct e as [x| | | |]; [|done..]. intros [= <- <-]. exists 0. rewrite Nat.add_0_r. done.
Qed.
Lemma tracks_bind {X Y} (m : comp (W * nat) X) m' (f : X -> comp (W * nat) Y) f' b1 b2 b Q R :
  tracks m m' b1 Q -> (forall x, Q x -> tracks (f x) (f' x) b2 R) -> b1 + b2 <= b -> tracks (cbind m f) (cbind m' f') b R.
Proof.
  intros Hm Hf Hb w n r w'. unfold cbind. destruct (m' w) as [[r1 w1]| | | |] eqn:E; [|done..]. rewrite obind_Ok.
  destruct (Hm w n r1 w1 E) as (k1 & -> & H1 & HQ). rewrite obind_Ok. destruct r1 as [x|].
  - intros E2. destruct (Hf x HQ w1 (n + k1) r w' E2) as (k2 & -> & H2 & HR). exists (k1 + k2). rewrite Nat.add_assoc.
    split; [done|]. split; [lia|done].
  - intros [= <- <-]. exists k1. split; [done|]. split; [lia|done].
Qed.
Lemma tracks_weaken {X} (m : comp (W * nat) X) m' b b' (Q R : X -> Prop) : tracks m m' b Q -> b <= b' -> (forall x, Q x -> R x) ->
  tracks m m' b' R.
Proof.
  intros Hm Hb HQ w n r w' E. destruct (Hm w n r w' E) as (k & -> & H1 & H2). exists k. split; [done|]. split; [lia|].
  destruct r; auto.
Qed.
Lemma tracks_does {X} (m : comp (W * nat) X) m' b (R Q : X -> Prop) P : does m' Q P -> tracks m m' b R -> tracks m m' b Q.
Proof.
  intros Hd Hm w n r w' E. destruct (Hm w n r w' E) as (k & -> & H1 & _). exists k. split; [done|]. split; [done|].
  destruct (Hd w) as (r1 & w1 & E1 & H). rewrite E in E1. injection E1 as <- <-. by destruct r.
Qed.
Lemma tracks_ask {K} (c : code W K) x : tracks (ask (counting c) x) (ask c x) 1 (fun _ => True).
Proof.
  intros w n r w'. unfold ask, counting. destruct (c w x) as [a w1]. intros [= <- <-]. exists 1. rewrite Nat.add_1_r.
  split; [done|]. split; [done|]. by destruct a.
Qed.
Lemma tracks_lift_bind {X Y} (e : outcome X) x (f : X -> comp (W * nat) Y) f' b R : e = Ok x -> tracks (f x) (f' x) b R ->
  tracks (cbind (clift e) f) (cbind (clift e) f') b R.
Proof.
  intros E Hf. eapply tracks_bind; [apply tracks_lift| |]; [|apply Nat.le_refl]. intros y Ey. rewrite E in Ey. by injection Ey as <-.
Qed.
End Tracks.

Section CostProof.
Context {W K V A : Type} {KO : KeyOps K} {PF : Profile} {OM : OrdMode} {AO : AugOps K V A}.
Notation tr := (tr K V).
Notation tree := (tree K V A).
Notation store := (store K V A).
Implicit Types (c : code W K).
Notation any := (fun _ => True).

Lemma bsearch_cost fuel c (l : list K) left right b : right - left < 2 ^ b ->
  tracks (bsearch_loop_c fuel (counting c) l left right) (bsearch_loop_c fuel c l left right) b any.
Proof.
  revert left right b. induction fuel as [|fuel IH]; intros left right b Hb; cbn [bsearch_loop_c].
  - eapply tracks_weaken; [apply tracks_lift|lia|done].
  - destruct (decide (left < right)) as [Hlt|Hge]; [|eapply tracks_weaken; [by apply (tracks_ret _ any)|lia|done]].
    destruct b as [|b]; [simpl in Hb; lia|]. rewrite Nat.pow_succ_r' in Hb.
    pose proof (Nat.div2_odd (right - left)) as Hd. assert (Nat.b2n (Nat.odd (right - left)) <= 1) by (destruct (Nat.odd _); simpl; lia).
    destruct (l !! _) as [x|]; [|eapply tracks_weaken; [apply tracks_lift|lia|done]].
    eapply (tracks_bind _ _ _ _ 1 b); [apply tracks_ask| |lia]. intros [] _.
    + eapply tracks_weaken; [by apply (tracks_ret _ any)|lia|done].
    + apply IH. lia.
    + apply IH. lia.
Qed.
Lemma bsearch64 c (l : list K) : length l <= 64 ->
  tracks (binary_search_c (counting c) l) (binary_search_c c l) 7 any.
Proof. intros H. apply bsearch_cost. simpl. lia. Qed.

Lemma locate_slot_cost c (kvs : list (K * V)) pv nx : length kvs <= 64 ->
  tracks (leaf_locate_slot_c (mk_leaf kvs pv nx) (counting c)) (leaf_locate_slot_c (mk_leaf kvs pv nx) c) 7 any.
Proof.
  intros Hl. unfold leaf_locate_slot_c. eapply tracks_lift_bind; [by apply leaf_keys_mk|]. apply bsearch64. by rewrite keysof_length.
Qed.
Lemma locate_value_cost c (kvs : list (K * V)) pv nx : length kvs <= 64 ->
  tracks (leaf_locate_slot_with_value_c (mk_leaf kvs pv nx) (counting c))
    (leaf_locate_slot_with_value_c (mk_leaf kvs pv nx) c) 7 any.
Proof.
  intros Hl. eapply (tracks_bind _ _ _ _ 7 0); [by apply locate_slot_cost| |lia]. intros [i|i] _.
  - eapply (tracks_bind _ _ _ _ 0 0); [apply tracks_lift| |lia]. intros v _. by apply tracks_ret.
  - by apply tracks_ret.
Qed.
Lemma locate_child_cost c ks cs (aus : list A) : inner_fits ks cs aus ->
  tracks (inner_locate_child_c (mk_inner ks cs aus) (counting c)) (inner_locate_child_c (mk_inner ks cs aus) c) 7 any.
Proof.
  intros Hf. unfold inner_locate_child_c. eapply tracks_lift_bind; [by apply inner_keys_mk|].
  pose proof Hf as (H1 & H2 & H3).
  eapply (tracks_bind _ _ _ _ 7 0); [apply bsearch64; unfold INNER_N in H1; lia| |lia].
  intros [i|i] _; (eapply (tracks_bind _ _ _ _ 0 0); [apply tracks_lift| |lia]; intros x _; by apply tracks_ret).
Qed.

Section Inv.
Context (rl ri : nat) (Hrl1 : 1 <= rl) (Hrl2 : rl <= 16) (Hri : ri <= 16).
Notation InvAt := (InvAt (A:=A) rl ri False).

Definition below (s : store) (h : nat) (x : nat * node_id) : Prop :=
  exists (y : tr) b m, x.2 = nid y /\ irep False (inners s) h y /\ nshape rl ri m b h y.

Lemma child_cost c (s : store) h id ks (ch : list tr) b m : irep False (inners s) (S h) (TNode id ks ch) ->
  nshape rl ri m b (S h) (TNode id ks ch) ->
  exists n, get_inner s id = Ok n /\
    tracks (inner_locate_child_c n (counting c)) (inner_locate_child_c n c) 7 (below s h).
Proof.
  intros Hi Hn. destruct (child_does rl ri Hrl1 Hrl2 Hri c s h id ks ch b m Hi Hn) as (n & En & Hd). exists n. split; [done|].
  eapply tracks_does.
  - eapply does_weaken; [exact Hd|]. intros x (kl & kr & cl & y & cr & _ & _ & _ & _ & -> & Hy & Hs). by exists y, (cflag b cr), (smin rl ri (cflag b cr) h).
  - destruct Hi as [Hr Hf]. destruct Hn as (Hk & Hc & Hs).
    destruct (node_rep_fits _ _ _ _ _ Hr (proj2 Hk) Hc) as (aus & E & Hfit & _).
    unfold get_inner in En. rewrite E in En. injection En as <-. by apply locate_child_cost.
Qed.

Lemma to_leaf_cost c (s : store) h (t : tr) b m fuel : irep False (inners s) h t -> nshape rl ri m b h t ->
  tracks (descend_to_leaf_c fuel s (nid t) (counting c)) (descend_to_leaf_c fuel s (nid t) c) (7 * h) any.
Proof.
  revert t b m fuel. induction h as [|h IH]; intros [id kvs|id ks ch] b m fuel Hi Hn; try done.
  - destruct fuel; (eapply tracks_weaken; [by apply (tracks_ret _ any)|lia|done]).
  - destruct fuel as [|fuel]; [eapply tracks_weaken; [apply tracks_lift|lia|done]|]. cbn [descend_to_leaf_c nid].
    destruct (child_cost c s h id ks ch b m Hi Hn) as (n & En & Hd).
    eapply tracks_lift_bind; [exact En|]. eapply (tracks_bind _ _ _ _ 7 (7 * h)); [exact Hd| |lia].
    intros [i x] (y & b' & m' & Ey & Hy & Hs). simpl in Ey. subst x. by eapply IH.
Qed.

Lemma insert_descend_cost c (s : store) h (t : tr) b m fuel i st : irep False (inners s) h t -> nshape rl ri m b h t ->
  nid t = NInner i ->
  tracks (insert_descend_c fuel s i (counting c) st) (insert_descend_c fuel s i c st) (7 * h) any.
Proof.
  revert t b m fuel i st. induction h as [|h IH]; intros [id kvs|id ks ch] b m fuel i st Hi Hn Eid; try done.
  injection Eid as <-. destruct fuel as [|fuel]; cbn [insert_descend_c]; [eapply tracks_weaken; [apply tracks_lift|lia|done]|].
  destruct (child_cost c s h id ks ch b m Hi Hn) as (n & En & Hd).
  eapply tracks_lift_bind; [exact En|]. eapply (tracks_bind _ _ _ _ 7 (7 * h)); [exact Hd| |lia].
  intros [j x] (y & b' & m' & Ey & Hy & Hs). simpl in Ey. subst x.
  eapply (tracks_bind _ _ _ _ 0 (7 * h)); [apply tracks_lift| |lia]. intros st' _.
  destruct (nid y) as [ci|lid] eqn:Ey.
  - by eapply IH.
  - eapply tracks_weaken; [by apply (tracks_ret _ any)|lia|done].
Qed.

Definition small (n : leaf K V) : Prop := exists kvs pv nx, n = mk_leaf kvs pv nx /\ length kvs <= 64.
Definition small_leaves (s : store) : Prop := forall id n, get_leaf s id = Ok n -> small n.

Lemma slot_cost c n : small n -> tracks (leaf_locate_slot_c n (counting c)) (leaf_locate_slot_c n c) 7 any.
Proof. intros (kvs & pv & nx & -> & H). by apply locate_slot_cost. Qed.
Lemma value_cost c n : small n ->
  tracks (leaf_locate_slot_with_value_c n (counting c)) (leaf_locate_slot_with_value_c n c) 7 any.
Proof. intros (kvs & pv & nx & -> & H). by apply locate_value_cost. Qed.

Lemma key_to_ref_cost c (s : store) h (t : tr) b m fuel st : small_leaves s ->
  irep False (inners s) h t -> nshape rl ri m b h t ->
  tracks (key_to_ref_loop_c fuel s (nid t) (counting c) st) (key_to_ref_loop_c fuel s (nid t) c st) (7 * (h + 1)) any.
Proof.
  intros Hsm. revert t b m fuel st. induction h as [|h IH]; intros [id kvs|id ks ch] b m fuel st Hi Hn; try done.
  - assert (tracks (do! n := clift (get_leaf s id) in do! r := leaf_locate_slot_c n (counting c) in
      match r with ROk idx => cret (Some (st, id, idx)) | RErr _ => cret None end)
      (do! n := clift (get_leaf s id) in do! r := leaf_locate_slot_c n c in
      match r with ROk idx => cret (Some (st, id, idx)) | RErr _ => cret None end) (7 * (0 + 1)) any) as H.
    { eapply (tracks_bind _ _ _ _ 0 7); [apply tracks_lift| |lia]. intros n Hg.
      eapply (tracks_bind _ _ _ _ 7 0); [by apply slot_cost, (Hsm id)| |lia]. intros [i|i] _; by apply tracks_ret. }
    destruct fuel; exact H.
  - destruct fuel as [|fuel]; [eapply tracks_weaken; [apply tracks_lift|lia|done]|]. cbn [key_to_ref_loop_c nid].
    destruct (child_cost c s h id ks ch b m Hi Hn) as (n & En & Hd).
    eapply tracks_lift_bind; [exact En|]. eapply (tracks_bind _ _ _ _ 7 (7 * (h + 1))); [exact Hd| |lia].
    intros [i x] (y & b' & m' & Ey & Hy & Hs). simpl in Ey. subst x.
    eapply (tracks_bind _ _ _ _ 0 (7 * (h + 1))); [apply tracks_lift| |lia]. intros st' _. by eapply IH.
Qed.

Lemma in_range_cost c (n : leaf K V) : tracks (leaf_in_range_c n (counting c)) (leaf_in_range_c n c) 2 any.
Proof.
  clear. unfold leaf_in_range_c. eapply (tracks_bind _ _ _ _ 1 1 _ any); [| |lia].
  - destruct (l_prev n); [|eapply tracks_weaken; [by apply (tracks_ret _ any)|lia|done]].
    eapply (tracks_bind _ _ _ _ 0 1); [apply tracks_lift| |lia]. intros x _.
    eapply (tracks_bind _ _ _ _ 1 0); [apply tracks_ask| |lia]. intros a _. by apply tracks_ret.
  - intros [] _; [eapply tracks_weaken; [by apply (tracks_ret _ any)|lia|done]|].
    eapply (tracks_bind _ _ _ _ 1 0 _ any); [| |lia]; [|intros x _; by apply tracks_ret].
    destruct (l_next n); [|eapply tracks_weaken; [by apply (tracks_ret _ any)|lia|done]].
    eapply (tracks_bind _ _ _ _ 0 1); [apply tracks_lift| |lia]. intros i _.
    eapply (tracks_bind _ _ _ _ 0 1); [apply tracks_lift| |lia]. intros x _.
    eapply (tracks_bind _ _ _ _ 1 0); [apply tracks_ask| |lia]. intros a _. by apply tracks_ret.
Qed.
Lemma cache_cost c (s : store) : tracks (try_cache_c s (counting c)) (try_cache_c s c) 2 any.
Proof.
  clear. unfold try_cache_c. destruct (cached s); [|eapply tracks_weaken; [by apply (tracks_ret _ any)|lia|done]].
  destruct (try_get_leaf s _); [|eapply tracks_weaken; [by apply (tracks_ret _ any)|lia|done]].
  eapply (tracks_bind _ _ _ _ 2 0); [apply in_range_cost| |lia]. intros b _. by apply tracks_ret.
Qed.

Lemma inv_small T h t : InvAt T h t -> small_leaves (t_store T).
Proof.
  intros HI id n Hg. unfold get_leaf in Hg. destruct (leaves (t_store T) !! id) as [[n'|]|] eqn:El; [|done..]. injection Hg as ->.
  destruct (live_leaf_of rl ri T h t id n HI El) as (s1 & kvs & s2 & Es).
  destruct (leaf_of_get rl ri T h t id HI) as (s1' & kvs' & s2' & Es' & Hz & Hg); [by exists s1, kvs, s2|].
  unfold get_leaf in Hg. rewrite El in Hg. injection Hg as ->. by exists kvs', (last_id None s1'), (hd_id s2' None).
Qed.
Lemma descend_cost c T h t : InvAt T h t -> let s := t_store T in
  tracks (descend_to_leaf_c (descend_fuel s) s (t_root T) (counting c)) (descend_to_leaf_c (descend_fuel s) s (t_root T) c) (7 * h) any.
Proof. intros HI s. rewrite (inv_root _ _ _ _ _ _ HI). eapply to_leaf_cost; apply HI. Qed.

(** ** Calls *)
Definition call_tracks {X} (m : call (W:=W * nat) (K:=K) (V:=V) (A:=A) X) (m' : call (W:=W) (K:=K) (V:=V) (A:=A) X) (b : nat) : Prop :=
  forall w n r T' w', m' w = Ok (r, T', w') -> exists k, m (w, n) = Ok (r, T', (w', n + k)) /\ k <= b.

Lemma leaving_tracks {X} (T : tree) (m : comp (W * nat) (X * tree)) m' b Q : tracks m m' b Q ->
  call_tracks (leaving T m) (leaving T m') b.
Proof.
  clear. intros Hm w n r T' w'. unfold leaving. destruct (m' w) as [[r1 w1]| | | |] eqn:E; [|done..]. rewrite obind_Ok.
  destruct (Hm w n r1 w1 E) as (k & -> & H1 & _). rewrite obind_Ok.
  destruct r1 as [[x T1]|]; intros [= <- <- <-]; by exists k.
Qed.

Lemma insert_leaf_cost c (s : store) id k v : small_leaves s ->
  tracks (insert_leaf_c s id (counting c) k v) (insert_leaf_c s id c k v) 7 any.
Proof.
  clear. intros Hsm. eapply (tracks_bind _ _ _ _ 0 7); [apply tracks_lift| |lia]. intros n Hg.
  eapply (tracks_bind _ _ _ _ 7 0); [by apply slot_cost, (Hsm id)| |lia]. intros r _.
  eapply tracks_weaken; [apply tracks_lift|lia|done].
Qed.
Lemma insert_cost c k v T h t : InvAt T h t -> call_tracks (insert_c T (counting c) k v) (insert_c T c k v) (7 * (h + 1)).
Proof.
  intros HI. pose proof (inv_small T h t HI) as Hsm. eapply (leaving_tracks _ _ _ _ any).
  eapply (tracks_bind _ _ _ _ (7 * (h + 1)) 0 _ any); [| |lia].
  - unfold descend_insert_c. rewrite (inv_root _ _ _ _ _ _ HI). destruct (nid t) as [i|lid] eqn:Ei.
    + eapply (tracks_bind _ _ _ _ (7 * h) 7); [eapply insert_descend_cost; [apply HI..|done]| |lia].
      intros [st lid] _. eapply (tracks_bind _ _ _ _ 7 0); [by apply insert_leaf_cost| |lia]. intros [r s] _.
      eapply tracks_weaken; [apply tracks_lift|lia|done].
    + eapply tracks_weaken; [by apply insert_leaf_cost|lia|done].
  - intros [r s] _. eapply tracks_weaken; [apply tracks_lift|lia|done].
Qed.
Lemma remove_cost c T h t : InvAt T h t -> call_tracks (remove_c T (counting c)) (remove_c T c) (7 * (h + 1)).
Proof.
  intros HI. eapply (leaving_tracks _ _ _ _ any). eapply (tracks_bind _ _ _ _ (7 * (h + 1)) 0 _ any); [| |lia].
  - rewrite (inv_root _ _ _ _ _ _ HI). eapply key_to_ref_cost; [by eapply inv_small|apply HI..].
  - intros [[[st lid] off]|] _; [|by apply tracks_ret].
    eapply (tracks_bind _ _ _ _ 0 0); [apply tracks_lift| |lia]. intros [kv T'] _. by apply tracks_ret.
Qed.

Lemma find_cost c (s : store) id : small_leaves s -> tracks (find_in_leaf_c s id (counting c)) (find_in_leaf_c s id c) 7 any.
Proof.
  clear. intros Hsm. eapply (tracks_bind _ _ _ _ 0 7); [apply tracks_lift| |lia]. intros n Hg.
  eapply (tracks_bind _ _ _ _ 7 0); [by apply value_cost, (Hsm id)| |lia]. intros [i r] _. by apply tracks_ret.
Qed.
Lemma find_mut_cost c (s : store) id f : small_leaves s ->
  tracks (find_in_leaf_mut_c s id (counting c) f) (find_in_leaf_mut_c s id c f) 7 any.
Proof.
  clear. intros Hsm. eapply (tracks_bind _ _ _ _ 0 7); [apply tracks_lift| |lia]. intros n Hg.
  eapply (tracks_bind _ _ _ _ 7 0); [by apply slot_cost, (Hsm id)| |lia]. intros [i|i] _; [|by apply tracks_ret].
  eapply (tracks_bind _ _ _ _ 0 0); [apply tracks_lift| |lia]. intros [v n'] _. by apply tracks_ret.
Qed.
(** [get] and [get_mut] have the same form. *)
Lemma cached_cost {X} c T h t (g : tree -> nat -> call (W:=W * nat) (K:=K) (V:=V) (A:=A) X) (g' : tree -> nat -> call (W:=W) (K:=K) (V:=V) (A:=A) X) : InvAt T h t ->
  (forall T' id, small_leaves (t_store T') -> call_tracks (g T' id) (g' T' id) 7) ->
  call_tracks
    (fun w => let! '(r, w) := try_cache_c (t_store T) (counting c) w in
      match r with
      | None => Ok (None, T, w)
      | Some (Some id) => g T id w
      | Some None =>
          let! '(r, w) := descend_to_leaf_c (descend_fuel (t_store T)) (t_store T) (t_root T) (counting c) w in
          match r with None => Ok (None, T, w) | Some id => g (with_store T (cache_leaf (t_store T) id)) id w end
      end)
    (fun w => let! '(r, w) := try_cache_c (t_store T) c w in
      match r with
      | None => Ok (None, T, w)
      | Some (Some id) => g' T id w
      | Some None =>
          let! '(r, w) := descend_to_leaf_c (descend_fuel (t_store T)) (t_store T) (t_root T) c w in
          match r with None => Ok (None, T, w) | Some id => g' (with_store T (cache_leaf (t_store T) id)) id w end
      end) (2 + 7 * (h + 1)).
Proof.
  intros HI Hg w n r T' w'. pose proof (inv_small T h t HI) as Hsm.
  destruct (try_cache_c (t_store T) c w) as [[r1 w1]| | | |] eqn:E; [|done..]. rewrite obind_Ok.
  destruct (cache_cost c _ w n r1 w1 E) as (k1 & -> & H1 & _). rewrite obind_Ok. destruct r1 as [[id|]|].
  - intros E2. destruct (Hg T id Hsm w1 (n + k1) r T' w' E2) as (k2 & -> & H2). exists (k1 + k2). rewrite Nat.add_assoc. split; [done|lia].
  - destruct (descend_to_leaf_c _ _ _ c w1) as [[r2 w2]| | | |] eqn:E2; [|done..]. rewrite obind_Ok.
    destruct (descend_cost c T h t HI w1 (n + k1) r2 w2 E2) as (k2 & -> & H2 & _). rewrite obind_Ok. destruct r2 as [id|].
    + intros E3. destruct (Hg (with_store T (cache_leaf (t_store T) id)) id Hsm w2 (n + k1 + k2) r T' w' E3) as (k3 & -> & H3).
      exists (k1 + k2 + k3). rewrite !Nat.add_assoc. split; [done|lia].
    + intros [= <- <- <-]. exists (k1 + k2). rewrite Nat.add_assoc. split; [done|lia].
  - intros [= <- <- <-]. exists k1. split; [done|lia].
Qed.
Lemma get_cost c T h t : InvAt T h t -> call_tracks (get_c T (counting c)) (get_c T c) (2 + 7 * (h + 1)).
Proof.
  intros HI.
  refine (cached_cost c T h t (fun T id => leaving T (do! r := find_in_leaf_c (t_store T) id (counting c) in cret (r, T)))
    (fun T id => leaving T (do! r := find_in_leaf_c (t_store T) id c in cret (r, T))) HI _).
  intros T' id Hsm. eapply (leaving_tracks _ _ _ _ any). eapply (tracks_bind _ _ _ _ 7 0); [by apply find_cost| |lia].
  intros r _. by apply tracks_ret.
Qed.
Lemma get_mut_cost c f T h t : InvAt T h t -> call_tracks (get_mut_c T (counting c) f) (get_mut_c T c f) (2 + 7 * (h + 1)).
Proof.
  intros HI.
  refine (cached_cost c T h t
    (fun T id => leaving T (do! '(r, s) := find_in_leaf_mut_c (t_store T) id (counting c) f in cret (r, with_store T s)))
    (fun T id => leaving T (do! '(r, s) := find_in_leaf_mut_c (t_store T) id c f in cret (r, with_store T s))) HI _).
  intros T' id Hsm. eapply (leaving_tracks _ _ _ _ any). eapply (tracks_bind _ _ _ _ 7 0); [by apply find_mut_cost| |lia].
  intros [r s] _. by apply tracks_ret.
Qed.

(** ** Cursors *)
Lemma cursor_leaf_cost c (x : cursor K) T h t : InvAt T h t ->
  tracks (cursor_locate_leaf_c T (counting c) x) (cursor_locate_leaf_c T c x) (4 + 7 * h) (fun y => small y.2).
Proof.
  intros HI. pose proof (inv_small T h t HI) as Hsm. unfold cursor_locate_leaf_c.
  eapply (tracks_bind _ _ _ _ 2 (2 + 7 * h) _ (fun o => match o with Some l => small l | None => True end)); [| |lia].
  - unfold try_get_leaf. destruct (leaves (t_store T) !! c_leaf x) as [[l|]|] eqn:El.
    2-3: eapply tracks_weaken; [by apply (tracks_ret None (fun o => match o with Some l => small l | None => True end))|lia|done].
    eapply (tracks_bind _ _ _ _ 2 0); [apply in_range_cost| |lia]. intros [] _; apply tracks_ret; [|done].
    apply (Hsm (c_leaf x)). unfold get_leaf. by rewrite El.
  - intros [l|] Hl.
    + eapply tracks_weaken; [by apply (tracks_ret _ (fun y => small y.2))|lia|done].
    + eapply (tracks_bind _ _ _ _ (2 + 7 * h) 0 _ any); [| |lia].
      * unfold locate_leaf_c. eapply (tracks_bind _ _ _ _ 2 (7 * h)); [apply cache_cost| |lia]. intros [id|] _.
        -- eapply tracks_weaken; [by apply (tracks_ret _ any)|lia|done].
        -- by apply (descend_cost c T h t).
      * intros id _. eapply (tracks_bind _ _ _ _ 0 0); [apply tracks_lift| |lia]. intros l Hg. apply tracks_ret. by apply (Hsm id).
Qed.
Lemma hint_cost c (x : cursor K) (l : leaf K V) :
  tracks (cursor_hint_hits_c l (counting c) x) (cursor_hint_hits_c l c x) 1 any.
Proof.
  clear. eapply (tracks_bind _ _ _ _ 0 1); [apply tracks_lift| |lia]. intros [[k v]|] _.
  - eapply (tracks_bind _ _ _ _ 1 0); [apply tracks_ask| |lia]. intros a _. by apply tracks_ret.
  - eapply tracks_weaken; [by apply (tracks_ret _ any)|lia|done].
Qed.
Lemma next_cost c (x : cursor K) T h t : InvAt T h t ->
  tracks (cursor_next_c T (counting c) x) (cursor_next_c T c x) (5 + 7 * (h + 1)) any.
Proof.
  intros HI. eapply (tracks_bind _ _ _ _ (4 + 7 * h) 8); [by eapply cursor_leaf_cost| |lia]. intros [id l] Hl.
  eapply (tracks_bind _ _ _ _ 1 7); [apply hint_cost| |lia]. intros o _.
  eapply (tracks_bind _ _ _ _ 7 0 _ any); [| |lia].
  - destruct o; [eapply tracks_weaken; [by apply (tracks_ret _ any)|lia|done]|].
    eapply (tracks_bind _ _ _ _ 7 0); [by apply value_cost| |lia]. intros [i v] _. by apply tracks_ret.
  - intros off _. eapply tracks_weaken; [apply tracks_lift|lia|done].
Qed.
Lemma prev_cost c (x : cursor K) T h t : InvAt T h t ->
  tracks (cursor_prev_c T (counting c) x) (cursor_prev_c T c x) (5 + 7 * (h + 1)) any.
Proof.
  intros HI. eapply (tracks_bind _ _ _ _ (4 + 7 * h) 8); [by eapply cursor_leaf_cost| |lia]. intros [id l] Hl.
  eapply (tracks_bind _ _ _ _ 1 7); [apply hint_cost| |lia]. intros o _.
  eapply (tracks_bind _ _ _ _ 7 0 _ any); [| |lia].
  - destruct o; [eapply tracks_weaken; [by apply (tracks_ret _ any)|lia|done]|].
    eapply (tracks_bind _ _ _ _ 7 0); [by apply slot_cost| |lia]. intros i _. by apply tracks_ret.
  - intros off _. eapply tracks_weaken; [apply tracks_lift|lia|done].
Qed.
Lemma cursor_value_cost c (x : cursor K) T h t : InvAt T h t ->
  tracks (cursor_value_c T (counting c) x) (cursor_value_c T c x) (5 + 7 * (h + 1)) any.
Proof.
  intros HI. eapply (tracks_bind _ _ _ _ (4 + 7 * h) 8); [by eapply cursor_leaf_cost| |lia]. intros [id l] Hl.
  eapply (tracks_bind _ _ _ _ 1 7); [apply hint_cost| |lia]. intros o _.
  destruct o; [eapply tracks_weaken; [by apply (tracks_ret _ any)|lia|done]|].
  eapply (tracks_bind _ _ _ _ 7 0); [by apply value_cost| |lia]. intros [i v] _. by apply tracks_ret.
Qed.
Lemma get_cursor_cost c k T h t : InvAt T h t ->
  tracks (get_cursor_c T (counting c) k) (get_cursor_c T c k) (7 * (h + 1)) any.
Proof.
  intros HI. pose proof (inv_small T h t HI) as Hsm.
  eapply (tracks_bind _ _ _ _ (7 * h) 7); [by apply (descend_cost c T h t)| |lia]. intros id _.
  eapply (tracks_bind _ _ _ _ 0 7); [apply tracks_lift| |lia]. intros l Hg.
  eapply (tracks_bind _ _ _ _ 7 0); [by apply value_cost, (Hsm id)| |lia]. intros [i v] _. by apply tracks_ret.
Qed.

Lemma write_call_tracks {X} (f : X -> vres K V) (m : call (W:=W * nat) (K:=K) (V:=V) (A:=A) X) m' b : call_tracks m m' b ->
  forall w n r T' w', write_call f m' w = Ok (r, T', w') -> exists k, write_call f m (w, n) = Ok (r, T', (w', n + k)) /\ k <= b.
Proof.
  clear. intros Hm w n r T' w'. unfold write_call. destruct (m' w) as [[[r1 T1] w1]| | | |] eqn:E; [|done..]. rewrite obind_Ok.
  intros [= <- <- <-]. destruct (Hm w n r1 T1 w1 E) as (k & -> & H). exists k. done.
Qed.
Lemma read_call_tracks {X} T (f : X -> vres K V) (m : comp (W * nat) X) m' b Q : tracks m m' b Q ->
  forall w n r (T' : tree) w', read_call T f m' w = Ok (r, T', w') -> exists k, read_call T f m (w, n) = Ok (r, T', (w', n + k)) /\ k <= b.
Proof.
  clear. intros Hm w n r T' w'. unfold read_call. destruct (m' w) as [[r1 w1]| | | |] eqn:E; [|done..]. rewrite obind_Ok.
  intros [= <- <- <-]. destruct (Hm w n r1 w1 E) as (k & -> & H & _). exists k. done.
Qed.

Lemma vstep_cost T h t (o : vop W K V) w n r T' w' : InvAt T h t -> vstep T o w = Ok (r, T', w') ->
  exists k, vstep T (counting_op o) (w, n) = Ok (r, T', (w', n + k)) /\ k <= call_cost h o.
Proof.
  intros HI. assert (forall X (f : X -> vres K V) e, plain_call T f e w = Ok (r, T', w') ->
    exists k, plain_call T f e (w, n) = Ok (r, T', (w', n + k)) /\ k <= 0) as Hp.
  { intros X f e. unfold plain_call. destruct e as [x| | | |]; [|done..]. intros [= <- <- <-]. exists 0. by rewrite Nat.add_0_r. }
  destruct o as [c k v|c|c|c f|c x|c x|c x|c k| | | | | | | ]; cbn [vstep counting_op call_cost].
  - apply write_call_tracks. by eapply insert_cost.
  - apply write_call_tracks. by eapply remove_cost.
  - apply write_call_tracks. by eapply get_cost.
  - apply write_call_tracks. by eapply get_mut_cost.
  - eapply read_call_tracks. by eapply next_cost.
  - eapply read_call_tracks. by eapply prev_cost.
  - eapply read_call_tracks. by eapply cursor_value_cost.
  - eapply read_call_tracks. by eapply get_cursor_cost.
  - apply Hp.
  - apply Hp.
  - intros [= <- <- <-]. exists 0. by rewrite Nat.add_0_r.
  - apply Hp.
  - apply Hp.
  - destruct (clear T); [|done..]. intros [= <- <- <-]. exists 0. by rewrite Nat.add_0_r.
  - destruct (tree_clone T); [|done..]. intros [= <- <- <-]. exists 0. by rewrite Nat.add_0_r.
Qed.
End Inv.

(** ** Bulk loading *)
Lemma dedup_cost (c : code2 W K) (l : list (K * V)) cur :
  tracks (dedup_keep_last_c (counting2 c) cur l) (dedup_keep_last_c c cur l)
    (match cur with Some _ => length l | None => pred (length l) end) any.
Proof.
  revert cur. induction l as [|x l IH]; intros cur; cbn [dedup_keep_last_c].
  - destruct cur; by apply tracks_ret.
  - destruct cur as [y|]; [|apply (IH (Some x))]. cbn [length].
    eapply (tracks_bind _ _ _ _ 1 (length l) _ any); [| |lia].
    + intros w n r w'. unfold counting2. destruct (c w y.1 x.1) as [a w1]. intros [= <- <-]. exists 1. rewrite Nat.add_1_r.
      split; [done|]. split; [done|]. by destruct a.
    + intros [] _; [apply (IH (Some x))| |].
      all: eapply (tracks_bind _ _ _ _ (length l) 0); [apply (IH (Some x))| |lia]; intros rr _; by apply tracks_ret.
Qed.
Lemma bulk_load_cost (c : code2 W K) (data : list (K * V)) w r w' : bulk_load_c (A:=A) c data w = Ok (r, w') ->
  exists k, bulk_load_c (A:=A) (counting2 c) data (w, 0) = Ok (r, (w', k)) /\ k <= pred (length data).
Proof.
  assert (tracks (bulk_load_c (A:=A) (counting2 c) data) (bulk_load_c (A:=A) c data) (pred (length data)) any) as H.
  { destruct data as [|x data]; [by apply tracks_ret|].
    eapply (tracks_bind _ _ _ _ (pred (length (x :: data))) 0); [apply (dedup_cost c (x :: data) None)| |lia]. intros items _.
    eapply tracks_weaken; [apply tracks_lift|lia|done]. }
  intros E. destruct (H w 0 r w' E) as (k & E' & Hk & _). by exists k.
Qed.
End CostProof.
