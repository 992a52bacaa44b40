(** Specification of a dendrogram and of its groups. Only the record of a node (its two children,
    its size and its height) is taken from the model. *)
From Verif Require Export Base Num ClusterModel.
Local Open Scope nat_scope.

(** The items below a node: node [x] < [n] is item [x], a later node has the items of its children. *)
Inductive items_of (n : nat) (ns : list node) : nat -> list nat -> Prop :=
| it_leaf x : x < n -> items_of n ns x [x]
| it_node x a L R : n <= x -> nth_error ns x = Some a ->
    items_of n ns (nd_left a) L -> items_of n ns (nd_right a) R -> items_of n ns x (L ++ R).

(** The children of all merged clusters, in order of creation. *)
Definition children (n : nat) (ns : list node) : list nat := flat_map (fun a => [nd_left a; nd_right a]) (skipn n ns).

(** A binary tree over n items: 2n-1 nodes, every node but the last is a child exactly once, children
    come before their parents, sizes add up, and the last node holds every item exactly once. *)
Record binary_tree (n : nat) (ns : list node) : Prop := {
  bt_length : length ns = 2 * n - 1;
  bt_leaf : forall x a, x < n -> nth_error ns x = Some a -> nd_within a = 1;
  bt_order : forall x a, n <= x -> nth_error ns x = Some a ->
     nd_left a < x /\ nd_right a < x /\ nd_left a <> nd_right a;
  bt_once : Permutation (children n ns) (seq 0 (2 * n - 2));
  bt_items : forall x a, nth_error ns x = Some a -> exists L, items_of n ns x L /\ NoDup L /\ length L = nd_within a;
  bt_root : forall L, items_of n ns (2 * n - 2) L -> Permutation L (seq 0 n) }.

(** The distances between the items of two clusters. *)
Definition pair_dist (D : dist) (i j : nat) : Qc := D (Nat.min i j) (Nat.max i j).
Definition cross (D : dist) (L R : list nat) : list Qc := flat_map (fun a => map (pair_dist D a) R) L.
Definition least (v : Qc) (l : list Qc) : Prop := In v l /\ forall x, In x l -> (v <= x)%Qc.
Definition greatest (v : Qc) (l : list Qc) : Prop := In v l /\ forall x, In x l -> (x <= v)%Qc.
Definition average (v : Qc) (l : list Qc) : Prop := l <> [] /\ (v * qn (length l) = qsum l)%Qc.

(** The forest that is left when all merges from node [b] on are undone: its roots. *)
Definition root_below (n b : nat) (ns : list node) (x : nat) : Prop :=
  x < b /\ ~ In x (children n (firstn b ns)).

(** What Group returns. *)
Record groups_of (n b : nat) (ns : list node) (gs : list (list nat)) (rs : list nat) : Prop := {
  go_roots : forall x, In x rs <-> root_below n b ns x;
  go_nodup : NoDup rs;
  go_items : Forall2 (fun x g => exists L, items_of n ns x L /\ Permutation g L /\ StronglySorted lt g) rs gs;
  go_part : Permutation (concat gs) (seq 0 n) }.

(** Undoing the merges [U]: the groups are the items below the nodes that are not in [U] and are not
    merged by a node outside of [U]. *)
Definition undo (n : nat) (ns : list node) (U : list nat) (gs : list (list nat)) : Prop :=
  exists rs, NoDup rs /\
    (forall x, In x rs <-> x < length ns /\ ~ In x U /\
       forall y b, n <= y -> ~ In y U -> nth_error ns y = Some b -> nd_left b <> x /\ nd_right b <> x) /\
    Forall2 (fun x g => exists L, items_of n ns x L /\ Permutation g L) rs gs.
(** [U] are [c] merges and no other merge is higher. *)
Definition highest_merges (n c : nat) (ns : list node) (U : list nat) : Prop :=
  NoDup U /\ length U = c /\ (forall u, In u U -> n <= u < length ns) /\
  forall u x a b, In u U -> ~ In x U -> n <= x -> nth_error ns u = Some a -> nth_error ns x = Some b -> (nd_height b <= nd_height a)%Qc.

(** The items below a node with the weight of WPGMA: every merge halves the weights of both sides. *)
Definition halve (l : list (nat * Qc)) : list (nat * Qc) := map (fun p => (fst p, (snd p / qz 2)%Qc)) l.
Inductive weighted_items (n : nat) (ns : list node) : nat -> list (nat * Qc) -> Prop :=
| wi_leaf x : x < n -> weighted_items n ns x [(x, 1%Qc)]
| wi_node x a L R : n <= x -> nth_error ns x = Some a ->
    weighted_items n ns (nd_left a) L -> weighted_items n ns (nd_right a) R ->
    weighted_items n ns x (halve L ++ halve R).
Definition weighted_mean (D : dist) (L R : list (nat * Qc)) : Qc :=
  qsum (flat_map (fun p => map (fun q => snd p * snd q * pair_dist D (fst p) (fst q))%Qc R) L).

(** Ward: the inertia of a set of items whose dissimilarities are squared Euclidean distances is the
    sum of the dissimilarities of its pairs divided by its size. *)
Fixpoint pair_sum (D : dist) (L : list nat) : Qc :=
  match L with [] => 0%Qc | a :: t => (qsum (map (pair_dist D a) t) + pair_sum D t)%Qc end.
Definition inertia (D : dist) (L : list nat) : Qc := (pair_sum D L / qn (length L))%Qc.

(** The merge matrix of R's hclust: a negative entry -(i+1) is item i, a positive entry p is the
    cluster of row p (counted from 1). The items below an entry: *)
Inductive r_items (merge : list (Z * Z)) : Z -> list nat -> Prop :=
| ri_item e : (e < 0)%Z -> r_items merge e [Z.to_nat (- e - 1)]
| ri_row e a b L R : (0 < e)%Z -> nth_error merge (Z.to_nat (e - 1)) = Some (a, b) ->
    r_items merge a L -> r_items merge b R -> r_items merge e (L ++ R).
(** An entry of row [j] (counted from 0) of a merge matrix of n items: an item or an earlier row. *)
Definition r_entry (n j : nat) (e : Z) : Prop := (- Z.of_nat n <= e <= -1 \/ 1 <= e <= Z.of_nat j)%Z.

(** What MergeR returns. *)
Record r_tree (n : nat) (ns : list node) (merge : list (Z * Z)) (heights : list Qc) (order : list nat) : Prop := {
  rt_rows : length merge = n - 1;
  rt_order : Permutation order (seq 0 (n - 1));
  rt_heights : Forall2 (fun k h => exists a, nth_error ns (n + k) = Some a /\ h = nd_height a) order heights;
  rt_sorted : StronglySorted Qcle heights;
  rt_entries : forall j a b, nth_error merge j = Some (a, b) -> r_entry n j a /\ r_entry n j b;
  rt_once : Permutation (flat_map (fun r => [fst r; snd r]) merge)
      (map (fun i => (- (Z.of_nat i + 1))%Z) (seq 0 n) ++ map (fun i => (Z.of_nat i + 1)%Z) (seq 0 (n - 2)));
  rt_items : forall j k L, nth_error order j = Some k -> items_of n ns (n + k) L -> r_items merge (Z.of_nat j + 1) L }.

(** Missing distances count as 0. *)
Definition known (D0 : nat -> nat -> option Qc) : dist := fun i j => match D0 i j with Some d => d | None => 0%Qc end.
