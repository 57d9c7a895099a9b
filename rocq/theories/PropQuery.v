(** C51-C53: searches, visitors and ranks written by users, from rules about single nodes. *)
From stdpp Require Import list.
From Coq Require Import ZArith.
From Verif Require Import Base Slots Store Tree Remove Iterators Observe BulkLoad History Spec Contents Augment AugSpec
  SearchSpec Instances HistTop HistProof QueryProof ExamplePrograms ExampleSpec ExampleProof DateProof.

(** The examples are computed in the dev profile. *)
Local Existing Instance dev_build.

(** C51: a [SearchAugmentation] that answers [S] node by node, trusting the
    summaries, finds what [S] says about the whole map, and removes that entry. *)
Theorem search_follows_rules {K V A Q} {KO : KeyOps K} {PF : Profile} {OL : OrdLaws K} {AO : AugOps K V A} {SO : SearchOps K V A Q}
    (R : A -> list (K * V) -> Prop) (S : list (K * V) -> Q -> option nat)
    (b : start K V) (ops : list (op K V)) rs (T : tree K V A) (q : Q) :
  summary_ok R -> search_rules R S ->
  proper (A:=A) b ops -> exec b ops = Ok (rs, T) -> (Exists is_write ops -> key_aug (A:=A) (V:=V) (K:=K)) ->
  let l := (spec_exec b ops).2 in
  get_by_augmentation T q = Ok (j ← S l q; l !! j) /\
  (removal_ok (A:=A) b l -> exists T', remove_by_augmentation T q = Ok (j ← S l q; l !! j, T') /\
    reachable b T' (match S l q with Some j => delete j l | None => l end)).
Proof. intros HR HS. exact (search_rules_top R HR S HS b ops rs T q). Qed.
Print Assumptions search_follows_rules.

(** C52: a visitor whose answers meet [D] node by node meets it on the whole map. *)
Theorem visit_follows_rules {K V A St X} {KO : KeyOps K} {PF : Profile} {OL : OrdLaws K} {AO : AugOps K V A}
    (R : A -> list (K * V) -> Prop) (vis : visitor K V A St X) (D : St -> list (K * V) -> option X -> Prop)
    (b : start K V) (ops : list (op K V)) rs (T : tree K V A) (st : St) :
  summary_ok R -> visit_rules vis R D ->
  proper (A:=A) b ops -> exec b ops = Ok (rs, T) -> (Exists is_write ops -> key_aug (A:=A) (V:=V) (K:=K)) ->
  exists o, descend_visit T vis st = Ok o /\ D st (spec_exec b ops).2 o.
Proof. intros HR HD. exact (visit_rules_top R HR vis D HD b ops rs T st). Qed.
Print Assumptions visit_follows_rules.

(** C53: a [RankAugmentation] that accounts for the smaller keys node by node gives
    a right answer about the whole map. *)
Theorem rank_follows_rules {K V A X} {KO : KeyOps K} {PF : Profile} {OL : OrdLaws K} {AO : AugOps K V A} {RO : RankOps K V A X}
    (R : A -> list (K * V) -> Prop) (k : K) (F : X -> list (K * V) -> Prop) (Ans : list (K * V) -> result X X -> Prop)
    (b : start K V) (ops : list (op K V)) rs (T : tree K V A) :
  summary_ok R -> rank_rules R k F Ans ->
  proper (A:=A) b ops -> exec b ops = Ok (rs, T) -> (Exists is_write ops -> key_aug (A:=A) (V:=V) (K:=K)) ->
  exists x, rank_by_augmentation T k = Ok x /\ Ans (spec_exec b ops).2 x.
Proof. intros HR HF. exact (rank_rules_top R HR k F Ans HF b ops rs T). Qed.
Print Assumptions rank_follows_rules.

(** *** Examples: the even keys of augment_even_count.rs *)
Section EvenExample.
Local Instance ex_even : AugOps Z Z nat := even_aug.
Local Instance ex_even_search : SearchOps Z Z nat nat := even_search.
(** the entry number [q] of those with even keys *)
Example search_follows_rules_ex :
  summary_ok (V:=Z) (weighs even_weight) /\ search_rules (V:=Z) (weighs even_weight) (at_weight even_weight) /\
  proper (A:=nat) SNew ex_ops /\ (spec_exec SNew ex_ops).2 = ex_list /\ removal_ok (A:=nat) SNew ex_list /\
  at_weight even_weight ex_list 27 = Some 54 /\ ex_list !! 54 = Some (174, 1740)%Z /\
  get_by_augmentation (A:=nat) ex_tree 27 = Ok (Some (174, 1740)%Z) /\ at_weight even_weight ex_list 40 = None.
Proof.
  split; [apply even_summary|]. split; [apply even_rules|]. split; [by apply legal_proper, ex_legal|].
  split; [vm_compute; done|]. split; [by split; [left|left]|]. split_and!; vm_compute; done.
Qed.

(** a visitor that follows the leftmost children, counting its steps, and gives up
    at a child without even keys *)
Definition left_even_visitor : visitor Z Z nat nat nat := {|
  visit_inner := fun d _ aus => match aus with 0 :: _ => (d, Cancel) | _ => (S d, GoDown 0) end;
  visit_leaf := fun d ks _ => Some (d + length (List.filter value_is_even ks)) |}.
(** it gives up only if the map has a non-empty prefix without even keys *)
Definition left_even_ok (d : nat) (l : list (Z * Z)) (o : option nat) : Prop :=
  match o with
  | None => exists l1 l2, l = l1 ++ l2 /\ l1 <> [] /\ evens l1 = []
  | Some n => d <= n
  end.
Lemma left_even_rules : visit_rules left_even_visitor (weighs even_weight) left_even_ok.
Proof.
  split.
  - intros d l _ _. simpl. lia.
  - intros d ks aus ls [_ Hne Hs [Hl _] _]. destruct ls as [|l ls]; [done|]. inversion Hs as [|a ? aus' ? Ha _]; subst.
    apply Forall_cons in Hne as [Hne _]. unfold weighs in Ha. rewrite even_weight_ok in Ha.
    simpl. destruct a as [|a].
    + exists l, (concat ls). split; [done|]. split; [done|]. by apply nil_length_inv.
    + exists l. split; [done|]. intros [n|]; simpl; [lia|]. intros (l1 & l2 & -> & H1 & H2). exists l1, (l2 ++ concat ls).
      split; [by rewrite app_assoc|done].
Qed.
Example visit_follows_rules_ex :
  summary_ok (V:=Z) (weighs even_weight) /\ visit_rules left_even_visitor (weighs even_weight) left_even_ok /\
  proper (A:=nat) SNew ex_ops /\ (spec_exec SNew ex_ops).2 = ex_list /\
  descend_visit (A:=nat) ex_tree left_even_visitor 0 = Ok (Some 17).
Proof.
  split; [apply even_summary|]. split; [apply left_even_rules|]. split; [by apply legal_proper, ex_legal|]. split; vm_compute; done.
Qed.

(** how many even keys are below [k] *)
Local Instance even_rank : RankOps Z Z nat nat := {|
  initial_value := 0;
  fold_inner := fun _ r aus => r + list_sum aus;
  fold_leaf := fun _ r slot ks =>
    match slot with
    | ROk i => ROk (r + length (List.filter value_is_even (take i ks)))
    | RErr i => RErr (r + length (List.filter value_is_even (take i ks)))
    end |}.
Definition evens_below (k : Z) (l : list (Z * Z)) (x : result nat nat) : Prop :=
  match x with ROk n | RErr n => n = length (evens (List.filter (fun kv => Z.ltb (fst kv) k) l)) end.
Lemma evens_app (a b : list (Z * Z)) : evens (a ++ b) = evens a ++ evens b.
Proof. apply List.filter_app. Qed.
Lemma even_keys (l : list (Z * Z)) : length (List.filter value_is_even (map fst l)) = length (evens l).
Proof.
  unfold evens. induction l as [|[k v] l IH]; [done|]. cbn [map List.filter fst]. rewrite value_is_even_ok.
  destruct (Z.even k); simpl; by rewrite ?IH.
Qed.
Lemma below_all k (l : list (Z * Z)) : Forall (fun y => kcmp (fst y) k = Lt) l -> List.filter (fun kv => Z.ltb (fst kv) k) l = l.
Proof.
  induction 1 as [|x l Hx _ IH]; [done|]. cbn [List.filter]. unfold kcmp, z_key in Hx. rewrite Z.compare_lt_iff in Hx.
  apply Z.ltb_lt in Hx. by rewrite Hx, IH.
Qed.
Lemma below_none k (l : list (Z * Z)) : Forall (fun y => kcmp (fst y) k <> Lt) l -> List.filter (fun kv => Z.ltb (fst kv) k) l = [].
Proof.
  induction 1 as [|x l Hx _ IH]; [done|]. cbn [List.filter]. unfold kcmp, z_key in Hx. rewrite Z.compare_lt_iff in Hx.
  apply Z.ltb_nlt in Hx. by rewrite Hx.
Qed.
Lemma even_rank_rules k : rank_rules (V:=Z) (weighs even_weight) k (fun r l => r = length (evens l)) (evens_below k).
Proof.
  assert (forall l0 a b : list (Z * Z), Forall (fun y => kcmp (fst y) k = Lt) (l0 ++ a) -> Forall (fun y => kcmp (fst y) k <> Lt) b ->
    length (evens l0) + length (List.filter value_is_even (take (length a) (map fst (a ++ b)))) =
    length (evens (List.filter (fun kv => Z.ltb (fst kv) k) (l0 ++ a ++ b)))) as H.
  { intros l0 a b Ha Hb. rewrite app_assoc, List.filter_app, (below_all k), (below_none k), app_nil_r by done.
    rewrite map_app, take_app_alt by (by rewrite map_length). by rewrite even_keys, evens_app, app_length. }
  assert (forall l, Forall (fun y : Z * Z => kcmp (fst y) k = Gt) l -> Forall (fun y => kcmp (fst y) k <> Lt) l) as HG.
  { intros l Hl. eapply Forall_impl; [exact Hl|]. intros y Hy. cbv beta in *. by rewrite Hy. }
  split.
  - done.
  - intros r l0 aus ls -> _ _ Hs _. simpl. rewrite evens_app, app_length. f_equal. rewrite (weighs_map _ _ _ Hs).
    rewrite <- weight_concat. apply even_weight_ok.
  - intros r l0 l l1 [i|i] -> _ _ Hs H0 H1; simpl in *.
    + destruct Hs as (a & x & b & -> & -> & Hx & Ha & Hb). rewrite <- app_assoc. cbn [app].
      rewrite <- (H l0 a (x :: b ++ l1)).
      * rewrite !map_app, !take_app_alt by (by rewrite map_length). done.
      * by apply Forall_app.
      * constructor; [by rewrite Hx|]. apply Forall_app. auto.
    + destruct Hs as (a & b & -> & -> & Ha & Hb). rewrite <- app_assoc. rewrite <- (H l0 a (b ++ l1)).
      * rewrite !map_app, !take_app_alt by (by rewrite map_length). done.
      * by apply Forall_app.
      * apply Forall_app. auto.
Qed.
Example rank_follows_rules_ex :
  summary_ok (V:=Z) (weighs even_weight) /\
  rank_rules (V:=Z) (weighs even_weight) 175%Z (fun r l => r = length (evens l)) (evens_below 175) /\
  proper (A:=nat) SNew ex_ops /\ (spec_exec SNew ex_ops).2 = ex_list /\
  rank_by_augmentation (A:=nat) ex_tree 175%Z = Ok (ROk 28) /\ rank_by_augmentation (A:=nat) ex_tree 100%Z = Ok (RErr 25).
Proof.
  split; [apply even_summary|]. split; [apply even_rank_rules|]. split; [by apply legal_proper, ex_legal|]. split_and!; vm_compute; done.
Qed.
End EvenExample.
