(** Model of hierarchical clustering, /repo/src/ldt_statistics/clustering/hcluster.cpp and
    group_data.cpp:24-77. Distances are finite rationals (the rounding of doubles and infinite
    distances are not modelled). MatrixSym<false> is a function on pairs of indices; that its packed
    array behaves like this is property C27. Nodes are numbered by their place in Nodes, which is their
    id in the code. *)
From Verif Require Export Base Num SortModel.
Local Open Scope nat_scope.

(** clustering.h HClusterNode. *)
Record node := { nd_left : nat; nd_right : nat; nd_within : nat; nd_dix : nat; nd_merged : bool; nd_height : Qc }.

(** clustering.h HClusterLinkage. *)
Inductive linkage := kSingle | kComplete | kAverageU | kAverageW | kWard.

(** MatrixSym<false>::Get0 and Set0: the diagonal throws. *)
Definition dist := nat -> nat -> Qc.
Definition dget (D : dist) (i j : nat) : res Qc := if i =? j then Throw else Ok (D (Nat.min i j) (Nat.max i j)).
Definition dset (D : dist) (i j : nat) (v : Qc) : res dist :=
  if i =? j then Throw
  else Ok (fun a b => if (a =? Nat.min i j) && (b =? Nat.max i j) then v else D a b).

(** hcluster.cpp:12-24 the constructor. *)
Definition init_nodes (n : nat) : list node :=
  map (fun i => {| nd_left := 0; nd_right := 0; nd_within := 1; nd_dix := i; nd_merged := false; nd_height := 0%Qc |}) (seq 0 n).

(** hcluster.cpp:276-303 CalculateDistance. *)
Definition link_dist (m : linkage) (nl nr nn : nat) (dl dr dlr : Qc) : Qc :=
  match m with
  | kSingle => if qltb dr dl then dr else dl
  | kComplete => if qltb dr dl then dl else dr
  | kAverageU => let w := (qn nl / (qn nl + qn nr))%Qc in (w * dl + (1 - w) * dr)%Qc
  | kAverageW => ((dl + dr) / qz 2)%Qc
  | kWard => let n := qn (nl + nr + nn) in
      (qn (nl + nn) / n * dl + qn (nr + nn) / n * dr - qn nn / n * dlr)%Qc
  end.

Definition node_at (ns : list node) (i : nat) : res node := match nth_error ns i with Some x => Ok x | None => Throw end.
Definition set_merged (x : node) : node :=
  {| nd_left := nd_left x; nd_right := nd_right x; nd_within := nd_within x; nd_dix := nd_dix x; nd_merged := true; nd_height := nd_height x |}.

(** hcluster.cpp:47-58: the loop over the nodes that updates the distances. *)
Fixpoint update_dist (m : linkage) (l r : node) (dix : nat) (h : Qc) (ns : list node) (D : dist) : res dist :=
  match ns with
  | [] => Ok D
  | a :: ns' =>
      if nd_merged a then update_dist m l r dix h ns' D
      else
        do dl <- dget D (nd_dix l) (nd_dix a);
        do dr <- dget D (nd_dix r) (nd_dix a);
        do D' <- dset D (nd_dix a) dix (link_dist m (nd_within l) (nd_within r) (nd_within a) dl dr h);
        update_dist m l r dix h ns' D'
  end.

(** hcluster.cpp:26-67 Merge2. *)
Definition merge2 (m : linkage) (ns : list node) (D : dist) (l r : nat) (h : Qc) : res (list node * dist) :=
  do ln <- node_at ns l; do rn <- node_at ns r;
  let dix := Nat.min (nd_dix ln) (nd_dix rn) in
  let cn := {| nd_left := l; nd_right := r; nd_within := nd_within ln + nd_within rn; nd_dix := dix; nd_merged := false; nd_height := h |} in
  let ns1 := upd r (set_merged rn) (upd l (set_merged ln) ns) in
  do D' <- update_dist m ln rn dix h ns1 D;
  Ok (ns1 ++ [cn], D').

(** hcluster.cpp:69-87 GetNearestNeighbor; [None] is nullptr. [i] is the number of the node [ns] starts with. *)
Fixpoint nearest_loop (D : dist) (x dx : nat) (i : nat) (ns : list node) (best : option (nat * Qc)) : res (option (nat * Qc)) :=
  match ns with
  | [] => Ok best
  | a :: ns' =>
      if (i =? x) || nd_merged a then nearest_loop D x dx (S i) ns' best
      else
        do d <- dget D dx (nd_dix a);
        let better := match best with None => true | Some (_, b) => qltb d b end in
        nearest_loop D x dx (S i) ns' (if better : bool then Some (i, d) else best)
  end.
Definition nearest (D : dist) (ns : list node) (x : nat) : res (option (nat * Qc)) :=
  do nx <- node_at ns x; nearest_loop D x (nd_dix nx) 0 ns None.

(** hcluster.cpp:115-145: the loop of Calculate. [stack] has its top first; [top] is top_node and
    [near] is nearest_1 with nearest_1_distance. Dereferencing a null neighbour and a loop that does not
    end (out of fuel) are UB. *)
Fixpoint chain_loop (m : linkage) (n fuel : nat) (ns : list node) (D : dist) (stack : list nat) (top : nat)
         (near : option (nat * Qc)) : res (list node * dist) :=
  if length ns =? 2 * n - 1 then Ok (ns, D)
  else
    match fuel with
    | O => UB
    | S f =>
        match near with
        | None => UB
        | Some (n1, d1) =>
            do n2 <- nearest D ns n1;
            match n2 with
            | None => UB
            | Some (n2, d2) =>
                if n2 =? top then
                  do '(ns', D') <- merge2 m ns D top n1 d1;
                  match tl stack with
                  | [] =>
                      let agg := length ns in
                      do n1' <- nearest D' ns' agg;
                      chain_loop m n f ns' D' [agg] agg n1'
                  | [p] =>
                      do n1' <- nearest D' ns' p;
                      chain_loop m n f ns' D' [p] p n1'
                  | q :: p :: rest =>
                      do tn <- node_at ns' p; do qn_ <- node_at ns' q;
                      do d <- dget D' (nd_dix tn) (nd_dix qn_);
                      chain_loop m n f ns' D' (p :: rest) p (Some (q, d))
                  end
                else chain_loop m n f ns D (n1 :: stack) n1 (Some (n2, d2))
            end
        end
    end.

(** hcluster.cpp:89-147 Calculate (the distances have the right length and no NaN). *)
Definition calculate (m : linkage) (n : nat) (D : dist) : res (list node * dist) :=
  let ns := init_nodes n in
  do _ <- node_at ns 0;
  do n1 <- nearest D ns 0;
  chain_loop m n (3 * n) ns D [0] 0 n1.

(** hcluster.cpp:149-159 set_group_var; recursion deeper than the number of nodes is UB. *)
Fixpoint set_group (fuel : nat) (ns : list node) (x : nat) (g : list nat) (last : nat) : res (list nat) :=
  match fuel with
  | O => UB
  | S f =>
      do nx <- node_at ns x;
      if nd_within nx =? 1 then Ok (upd x last g)
      else do g' <- set_group f ns (nd_left nx) g last; set_group f ns (nd_right nx) g' last
  end.

(** std::set<Ti> of the labels: distinct labels in increasing order, [m] bounds the labels. *)
Definition labels (m : nat) (g : list nat) : list nat := filter (fun l => existsb (Nat.eqb l) g) (seq 0 (S m)).

(** hcluster.cpp:180-207: the loop over the merges, from node [i]-1 down to node [n]. *)
Fixpoint split_loop (n k : nat) (ns : list node) (i cnt : nat) (last : nat) (g : list nat) (gr : list nat) : res (list nat * list nat) :=
  match cnt with
  | O => Ok (g, gr)
  | S c =>
      do nd <- node_at ns (i - 1);
      do nl <- node_at ns (nd_left nd); do nr <- node_at ns (nd_right nd);
      let last := S last in
      do g' <- set_group (length ns) ns (if nd_within nl <? nd_within nr then nd_left nd else nd_right nd) g last;
      let gr' := labels last g' in
      if length gr' =? k then Ok (g', gr') else split_loop n k ns (i - 1) c last g' gr'
  end.

Definition members_of (g : list nat) (l : nat) : list nat :=
  filter (fun i => nth i g 0 =? l) (seq 0 (length g)).

(** hcluster.cpp:161-219 Group with [k] empty slots; map.at throws when there are more labels than slots. *)
Definition group (n k : nat) (ns : list node) : res (list (list nat)) :=
  if k =? n then Ok (map (fun i => [i]) (seq 0 n))
  else if k =? 1 then Ok [seq 0 n]
  else
    do '(g, gr) <- split_loop n k ns (2 * n - 1) (n - 1) 0 (repeat 0 n) [];
    if k <? length gr then Throw
    else Ok (map (members_of g) gr ++ repeat [] (k - length gr)).

(** group_data.cpp:58-75: removal of redundant variables in one group: positions [j] for which an
    earlier position [i] is closer than the threshold. [D] are the distances after the clustering. *)
Fixpoint existsb_res {A} (f : A -> res bool) (l : list A) : res bool :=
  match l with [] => Ok false | a :: l' => do b <- f a; do r <- existsb_res f l'; Ok (b || r) end.
Fixpoint filter_res {A} (f : A -> res bool) (l : list A) : res (list A) :=
  match l with [] => Ok [] | a :: l' => do b <- f a; do r <- filter_res f l'; Ok (if b : bool then a :: r else r) end.
Definition removed_positions (D : dist) (th : Qc) (g : list nat) : res (list nat) :=
  filter_res (fun j => existsb_res (fun i => do d <- dget D (nth i g 0) (nth j g 0); Ok (qltb d th)) (seq 0 j)) (seq 0 (length g)).
Definition keep_positions (g : list nat) (rm : list nat) : list nat :=
  map (fun j => nth j g 0) (filter (fun j => negb (existsb (Nat.eqb j) rm)) (seq 0 (length g))).
Fixpoint filter_groups (D : dist) (th : Qc) (gs : list (list nat)) : res (list (list nat) * list nat) :=
  match gs with
  | [] => Ok ([], [])
  | g :: gs' =>
      do rm <- removed_positions D th g;
      do '(r, all) <- filter_groups D th gs';
      Ok (keep_positions g rm :: r, rm ++ all)
  end.
(** group_data.cpp:24-77 Calculate after the distances ([None] is NaN, which becomes 0); the result are
    Groups, Removed (a set, given by its elements) and NaNDistanceFound for n variables. *)
Definition group_data (m : linkage) (n : nat) (D0 : nat -> nat -> option Qc) (k : nat) (th : Qc) : res (list (list nat) * list nat * bool) :=
  let D := fun i j => match D0 i j with Some d => d | None => 0%Qc end in
  let nan := existsb (fun j => existsb (fun i => match D0 i j with None => true | Some _ => false end) (seq 0 j)) (seq 0 n) in
  do '(ns, D') <- calculate m n D;
  do gs <- group n k ns;
  if qltb 0%Qc th then do '(gs', rm) <- filter_groups D' th gs; Ok (gs', rm, nan)
  else Ok (gs, [], nan).

(** The object (clustering.h GroupDataBase: Groups, Removed, NaNDistanceFound) over several calls:
    Groups is cleared, Removed and NaNDistanceFound are not (group_data.cpp:33-35). *)
Record gd_object := { gd_groups : list (list nat); gd_removed : list nat; gd_nan : bool }.
Definition gd_new : gd_object := {| gd_groups := []; gd_removed := []; gd_nan := false |}.
Definition gd_calculate (o : gd_object) (m : linkage) (n : nat) (D0 : nat -> nat -> option Qc) (k : nat) (th : Qc) : res gd_object :=
  do '(gs, rm, nan) <- group_data m n D0 k th;
  Ok {| gd_groups := gs; gd_removed := gd_removed o ++ rm; gd_nan := gd_nan o || nan |}.

(** hcluster.cpp:217-262 MergeR: the rows of merge, heights and order. A cluster is written as its
    number among the merges (from 1), a single item i as -(i + 1). *)
Definition enc (n : nat) (ns : list node) (c : nat) : res Z :=
  do x <- node_at ns c;
  Ok (if (1 <? nd_within x)%nat then (Z.of_nat c - Z.of_nat n + 1)%Z else (- (Z.of_nat c + 1))%Z).
Fixpoint rows0 (n : nat) (all ns : list node) : res (list (Z * Z)) :=
  match ns with
  | [] => Ok []
  | a :: t => do l <- enc n all (nd_left a); do r <- enc n all (nd_right a); do rest <- rows0 n all t; Ok ((l, r) :: rest)
  end.
(** std::find: the position, or the length. *)
Fixpoint find_pos (x : nat) (l : list nat) : nat := match l with [] => 0 | a :: t => if a =? x then 0 else S (find_pos x t) end.
Definition renumber (order : list nat) (e : Z) : Z :=
  if (0 <=? e - 1)%Z then (Z.of_nat (find_pos (Z.to_nat (e - 1)) order) + 1)%Z else e.
Definition merge_r (n : nat) (ns : list node) : res (list (Z * Z) * list Qc * list nat) :=
  do rs <- rows0 n ns (skipn n ns);
  let hs := map nd_height (skipn n ns) in
  let order := sort_indexes true hs in
  do heights <- sort_by_vector hs hs (map Z.of_nat order);
  do rows <- gather rs (map Z.of_nat order);
  Ok (map (fun r => (renumber order (fst r), renumber order (snd r))) rows, heights, order).
