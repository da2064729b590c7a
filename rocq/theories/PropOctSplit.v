(** When a leaf of the octree is split, /repo/src/index/octree.cpp:31-102. *)
From Coq Require Import QArith List Bool ZArith Lia.
From Verif Require Import Arr AabModel OctreeModel OctreeProofs.
Import ListNotations.
Open Scope Z_scope.

(** The weight handed to the octants: an object counts once for every octant its box meets. *)
Definition handed (b : aab) (objs : list wobj) : Z :=
  fold_right (fun c s => fold_right (fun o s => if intersect c (o_box o) then o_size o + s else s) 0 objs + s) 0 (octants b).
Definition sum_sizes (objs : list wobj) : Z := fold_right (fun o s => o_size o + s) 0 objs.

Definition keeps (add : onode -> wobj -> option onode) : Prop := forall k o k', add k o = Some k' -> node_box k' = node_box k.
Lemma add_kids_total add o : keeps add -> forall kids kids' n, add_kids add kids o = Some (kids', n) -> map node_box kids' = map node_box kids /\
  n = fold_right (fun c s => (if intersect c (o_box o) then o_size o else 0) + s) 0 (map node_box kids).
Proof.
  intro K. induction kids as [|k r IH]; intros kids' n H; cbn [add_kids] in H.
  - injection H as <- <-. auto.
  - cbn [map fold_right]. unfold intersects in H. destruct (intersect (node_box k) (o_box o)).
    + destruct (add k o) as [k'|] eqn:E; [|discriminate H]. cbn [bind] in H. destruct (add_kids add r o) as [[r' m]|] eqn:E2; [|discriminate H]. cbn [bind] in H. injection H as <- <-.
      destruct (IH _ _ eq_refl) as [H1 H2]. cbn [map]. rewrite (K _ _ _ E), H1. split; [reflexivity|lia].
    + destruct (add_kids add r o) as [[r' m]|] eqn:E2; [|discriminate H]. cbn [bind] in H. injection H as <- <-. destruct (IH _ _ eq_refl) as [H1 H2]. cbn [map]. rewrite H1. split; [reflexivity|lia].
Qed.
Lemma add_all_total add : keeps add -> forall objs kids kids' n, add_all add kids objs = Some (kids', n) -> map node_box kids' = map node_box kids /\
  n = fold_right (fun c s => fold_right (fun o s => if intersect c (o_box o) then o_size o + s else s) 0 objs + s) 0 (map node_box kids).
Proof.
  intro K. induction objs as [|o r IH]; intros kids kids' n H; cbn [add_all] in H.
  - injection H as <- <-. split; [reflexivity|]. induction (map node_box kids) as [|c l IHl]; cbn [fold_right] in *; lia.
  - destruct (add_kids add kids o) as [[k1 n1]|] eqn:E1; [|discriminate H]. cbn [bind] in H. destruct (add_all add k1 r) as [[k2 n2]|] eqn:E2; [|discriminate H]. cbn [bind] in H. injection H as <- <-.
    destruct (add_kids_total add o K _ _ _ E1) as [A1 A2]. destruct (IH _ _ _ E2) as [B1 B2]. split; [congruence|]. rewrite A1 in B2. subst n1 n2. clear.
    induction (map node_box kids) as [|c l IHl]; cbn [fold_right] in *; [reflexivity|]. destruct (intersect c (o_box o)); lia.
Qed.
Lemma addObject_box fuel ts : keeps (addObject fuel ts).
Proof.
  destruct fuel as [|f]; intros k o k' H; [discriminate H|]. destruct k as [b sz can objs|b sz can kids]; cbn [addObject] in H.
  - destruct (u32 (sz + o_size o) =? o_size o); [injection H as <-; reflexivity|]. destruct ((ts <? u32 (sz + o_size o)) && can)%bool.
    + destruct (add_all _ _ _) as [[kids total]|]; [|discriminate H]. cbn [bind] in H. destruct (_ <=? _); injection H as <-; reflexivity.
    + destruct (_ <? _); injection H as <-; reflexivity.
  - destruct (u32 (sz + o_size o) =? o_size o); [injection H as <-; reflexivity|]. destruct (add_kids _ _ _) as [[kids' n]|]; [|discriminate H]. cbn [bind] in H. injection H as <-. reflexivity.
Qed.
Lemma octants_length b : length (octants b) = 8%nat.
Proof. reflexivity. Qed.
Lemma handed_bound b objs : Forall (fun o => 0 < o_size o) objs -> 0 <= handed b objs <= 8 * sum_sizes objs.
Proof.
  intro F. assert (G : forall c, 0 <= fold_right (fun o s => if intersect c (o_box o) then o_size o + s else s) 0 objs <= sum_sizes objs).
  { intro c. unfold sum_sizes. induction F as [|o l H F IH]; cbn [fold_right]; [lia|]. destruct (intersect c (o_box o)); lia. }
  unfold handed. assert (X : forall l : list aab, 0 <= fold_right (fun c s => fold_right (fun o s => if intersect c (o_box o) then o_size o + s else s) 0 objs + s) 0 l <= Z.of_nat (length l) * sum_sizes objs).
  { induction l as [|c l IH]; cbn [fold_right length]; [lia|]. specialize (G c). lia. }
  specialize (X (octants b)). rewrite octants_length in X. lia.
Qed.

(** C160: a leaf becomes an inner node exactly if it was not empty, its weight with the new object
    exceeds the tile size, splitting was not ruled out before, and less than about twice the weight
    would be handed down; if too much would be handed down splitting is ruled out, until an object
    arrives at a weight above one and a half tile sizes.  Otherwise the object is appended. *)
Theorem octree_split_rule : forall fuel ts b can objs o t', 0 <= ts -> Forall (fun o => 0 < o_size o) (objs ++ [o]) -> 16 * sum_sizes (objs ++ [o]) < 2 ^ 32 ->
  addObject (S fuel) ts (Leaf b (sum_sizes objs) can objs) o = Some t' ->
  let w := sum_sizes (objs ++ [o]) in
  node_box t' = b /\
  match t' with
  | Inner _ w' _ kids => objs <> [] /\ ts < w /\ can = true /\ handed b (objs ++ [o]) < 2 * (w - 1) /\ w' = w /\ map node_box kids = octants b
  | Leaf _ w' can' objs' => objs' = objs ++ [o] /\ w' = w /\ (objs = [] \/ w <= ts \/ can = false \/ 2 * (w - 1) <= handed b (objs ++ [o])) /\
      (objs = [] -> can' = can) /\ (objs <> [] -> can' = (if (ts <? w) && can then false else can || (3 * ts <? 2 * w))%bool)
  end.
Proof.
  intros fuel ts b can objs o t' HT F W H w. pose proof (addObject_box (S fuel) ts _ _ _ H) as B. split; [exact B|]. clear B.
  assert (S1 : w = sum_sizes objs + o_size o). { unfold w, sum_sizes. clear. induction objs as [|x l IH]; cbn [app fold_right]; lia. }
  assert (FO : 0 < o_size o /\ Forall (fun o => 0 < o_size o) objs). { apply Forall_app in F. destruct F as [F1 F2]. inversion F2; subst. auto. }
  destruct FO as [PO FO]. fold w in W. pose proof (handed_bound b (objs ++ [o]) F) as HB. fold w in HB.
  assert (SZ : 0 <= sum_sizes objs /\ (sum_sizes objs = 0 <-> objs = [])).
  { unfold sum_sizes. clear - FO. destruct FO as [|x l P FO]; cbn [fold_right]; [split; [lia|tauto]|]. assert (0 <= fold_right (fun o s => o_size o + s) 0 l) by (induction FO; cbn [fold_right]; lia). split; [lia|]. split; [lia|discriminate]. }
  destruct SZ as [SP SE]. change (2 ^ 32) with 4294967296 in W. cbn [addObject] in H. rewrite <- S1 in H. assert (U : u32 w = w) by (unfold u32; apply Z.mod_small; change (2 ^ 32) with 4294967296; lia). rewrite U in H.
  destruct (Z.eqb_spec w (o_size o)) as [E|E].
  - injection H as <-. assert (Z0 : objs = []) by (apply SE; lia). split; [reflexivity|]. split; [reflexivity|]. split; [left; exact Z0|]. split; [reflexivity|intro N; contradiction].
  - assert (NE : objs <> []) by (intro Z0; apply SE in Z0; lia). destruct (Z.ltb_spec ts w) as [L|L]; cbn [andb] in H.
    + destruct can.
      * destruct (add_all (addObject fuel ts) (map new_node (octants b)) (objs ++ [o])) as [[kids total]|] eqn:A; [|discriminate H]. cbn [bind] in H.
        destruct (add_all_total _ (addObject_box fuel ts) _ _ _ _ A) as [A1 A2].
        assert (MB : map node_box (map new_node (octants b)) = octants b) by (rewrite map_map; apply map_id). rewrite MB in A1, A2. fold (handed b (objs ++ [o])) in A2. subst total.
        assert (U1 : u32 (handed b (objs ++ [o])) = handed b (objs ++ [o])) by (unfold u32; apply Z.mod_small; change (2 ^ 32) with 4294967296; lia).
        assert (U2 : u32 (2 * (w - 1)) = 2 * (w - 1)) by (unfold u32; apply Z.mod_small; change (2 ^ 32) with 4294967296; lia). rewrite U1, U2 in H.
        destruct (Z.leb_spec (2 * (w - 1)) (handed b (objs ++ [o]))) as [G|G]; injection H as <-; [split; [reflexivity|]; split; [reflexivity|]; split; [auto|]; split; [contradiction|reflexivity]|auto 10].
      * destruct (Z.ltb_spec (3 * ts) (2 * w)) as [G|G]; injection H as <-; (split; [reflexivity|]; split; [reflexivity|]; split; [auto|]; split; [contradiction|reflexivity]).
    + destruct (Z.ltb_spec (3 * ts) (2 * w)) as [G|G]; injection H as <-; (split; [reflexivity|]; split; [reflexivity|]; split; [auto|]; split; [contradiction|]; intros _; destruct can; reflexivity).
Qed.
Print Assumptions octree_split_rule.
Definition cube (x s : Z) (i : nat) : wobj := Wobj i (Z.of_nat i) (Aab (fun _ => inject_Z x) (fun _ => inject_Z (x + s))) 3.
Definition world : aab := Aab (fun _ => 0%Q) (fun _ => 16%Q).
Definition slab (lo hi : Q) (i : nat) : wobj := Wobj i (Z.of_nat i) (Aab (fun a => match a with AZ => lo | _ => 2%Q end) (fun a => match a with AZ => hi | _ => 14%Q end)) 3.
(** A split that pays, one that is undone, and one that waits for more than one and a half sizes. *)
Example octree_split_nonvacuous :
  match addObject 6 5 (Leaf world 3 true [cube 1 2 0]) (cube 10 3 1) with Some (Inner _ 6 _ _) => True | _ => False end /\
  addObject 6 5 (Leaf world 3 true [slab 7 (15 # 2) 0]) (slab 6 (13 # 2) 1) = Some (Leaf world 6 false [slab 7 (15 # 2) 0; slab 6 (13 # 2) 1]) /\
  addObject 6 5 (Leaf world 6 false [slab 7 (15 # 2) 0; slab 6 (13 # 2) 1]) (slab 4 5 2) = Some (Leaf world 9 true [slab 7 (15 # 2) 0; slab 6 (13 # 2) 1; slab 4 5 2]).
Proof. split; [vm_compute; exact I|]. split; vm_compute; reflexivity. Qed.
