(** What user written searches, visitors and ranks have to satisfy node by node. *)
From stdpp Require Import list.
From Verif Require Import Base Spec Augment.

(** ** Answers in range *)
Section Range.
Context {K V A Q : Type} {SO : SearchOps K V A Q}.

(** In a leaf the answer is the index of one of its entries, in an inner node it
    is the index of one of its children. *)
Definition search_in_range : Prop :=
  (forall q (ks : list K) (vs : list V) i, length vs = length ks -> length ks <= 64 ->
     locate_in_leaf (A:=A) q ks vs = Some i -> i < length ks) /\
  (forall q (ks : list K) (aus : list A) i q', length aus = S (length ks) -> length ks <= 64 ->
     locate_in_inner (V:=V) q ks aus = Some (i, q') -> i < length aus).
End Range.

(** ** Local rules *)
Section Rules.
Context {K V A : Type} {KO : KeyOps K} {PF : Profile} {AO : AugOps K V A}.
Notation run := (list (K * V)).

(** What an inner node shows: keys [ks] and summaries [aus] of the non-empty,
    ascending runs [ls] below its children, [ks] separating the runs. *)
Record node_shows (R : A -> run -> Prop) (ks : list K) (aus : list A) (ls : list run) : Prop := {
  ns_ascending : ascending (concat ls);
  ns_nonempty : Forall (fun l => l <> []) ls;
  ns_summaries : Forall2 R aus ls;
  ns_length : length ls = S (length ks) /\ length ks <= 64;
  ns_separate : forall i s j l kv, ks !! i = Some s -> ls !! j = Some l -> kv ∈ l ->
    (j <= i -> kcmp (fst kv) s = Lt) /\ (i < j -> kcmp (fst kv) s <> Lt);
}.

(** [S l q]: the position of the answer to query [q] in the run [l]. *)
Record search_rules {Q} {SO : SearchOps K V A Q} (R : A -> run -> Prop) (S : run -> Q -> option nat) : Prop := {
  sr_range : forall l q i, S l q = Some i -> i < length l;
  sr_leaf : forall l q, ascending l -> length l <= 64 ->
    locate_in_leaf (A:=A) q (map fst l) (map snd l) = S l q;
  sr_inner : forall ks aus ls q, node_shows R ks aus ls ->
    match locate_in_inner (V:=V) q ks aus with
    | None => S (concat ls) q = None
    | Some (i, q') => exists l, ls !! i = Some l /\
        S (concat ls) q = Nat.add (length (concat (take i ls))) <$> S l q'
    end;
}.

(** [D st l o]: a visitor in state [st] may answer [o] about the run [l]. *)
Record visit_rules {St X} (vis : visitor K V A St X) (R : A -> run -> Prop)
    (D : St -> run -> option X -> Prop) : Prop := {
  vr_leaf : forall st l, ascending l -> length l <= 64 -> D st l (visit_leaf vis st (map fst l) (map snd l));
  vr_inner : forall st ks aus ls, node_shows R ks aus ls ->
    match visit_inner vis st ks aus with
    | (st', GoDown i) => exists l, ls !! i = Some l /\ forall o, D st' l o -> D st (concat ls) o
    | (st', Cancel) => D st (concat ls) None
    | (st', Complete x) => D st (concat ls) (Some x)
    end;
}.

(** Where key [k] is in the run [l]: at index [i] ([ROk i]) or missing, with [i]
    smaller keys ([RErr i]). *)
Definition slot_is (k : K) (l : run) (slot : result nat nat) : Prop :=
  match slot with
  | ROk i => exists a x b, l = a ++ x :: b /\ i = length a /\ kcmp (fst x) k = Eq /\
      Forall (fun y => kcmp (fst y) k = Lt) a /\ Forall (fun y => kcmp (fst y) k = Gt) b
  | RErr i => exists a b, l = a ++ b /\ i = length a /\
      Forall (fun y => kcmp (fst y) k = Lt) a /\ Forall (fun y => kcmp (fst y) k = Gt) b
  end.

(** [F r l]: the rank [r] accounts for the run [l] of smaller keys; [Ans l x]: [x]
    is a right answer for key [k] in the run [l]. *)
Record rank_rules {X} {RO : RankOps K V A X} (R : A -> run -> Prop) (k : K)
    (F : X -> run -> Prop) (Ans : run -> result X X -> Prop) : Prop := {
  rr_start : F (initial_value (K:=K) (V:=V) (A:=A)) [];
  rr_inner : forall r l0 aus ls, F r l0 -> ascending (l0 ++ concat ls) -> Forall (fun l => l <> []) ls ->
    Forall2 R aus ls -> Forall (fun y => kcmp (fst y) k = Lt) (l0 ++ concat ls) ->
    F (fold_inner (V:=V) k r aus) (l0 ++ concat ls);
  rr_leaf : forall r l0 l l1 slot, F r l0 -> ascending (l0 ++ l ++ l1) -> length l <= 64 -> slot_is k l slot ->
    Forall (fun y => kcmp (fst y) k = Lt) l0 -> Forall (fun y => kcmp (fst y) k = Gt) l1 ->
    Ans (l0 ++ l ++ l1) (fold_leaf (V:=V) (A:=A) k r slot (map fst l));
}.
End Rules.
