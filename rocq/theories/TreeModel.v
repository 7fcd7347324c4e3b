(** Model of SecureBoost training and prediction (mplang/libs/ml/sgb.py:94-230,
    446-490, 740-1567): binning, split search, level-wise tree construction across
    the active party (AP, index 0) and the passive parties (PP, index 1...), leaf
    values, and federated prediction.

    Simplifications.  Floating-point numbers are rationals: no rounding, no NaN;
    +inf is [None] in thresholds, -inf is [None] in gains.  The encrypted histogram
    is the plaintext one (SGBModel.plain_histogram; what the encrypted computation
    delivers is the subject of C65).  The transport of arrays between the parties
    is the identity (C33, C40).  JAX indexing is written out: a negative index
    counts from the end, an index out of range is clamped. *)
From Coq Require Import List ZArith QArith Bool Arith.
From Verif Require Import MPCBase BFVModel SGBModel.
Import ListNotations.
Local Open Scope nat_scope.

(** finite numbers and +inf *)
Notation xq := (option Q) (only parsing).
(** [x <= thresh] *)
Definition le_x (x : Q) (t : xq) : bool := match t with Some y => Qle_bool x y | None => true end.
(** [b < x] *)
Definition x_lt (b : xq) (x : Q) : bool := match b with Some y => negb (Qle_bool x y) | None => false end.

(** JAX a[i] *)
Definition jget {A : Type} (d : A) (l : list A) (i : Z) : A :=
  let n := Z.of_nat (length l) in
  let k := if (i <? 0)%Z then (i + n)%Z else i in
  nth (Z.to_nat (Z.max 0 (Z.min k (n - 1)))) l d.

(** ** Binning *)

Definition qmin (x : Q) (l : list Q) : Q := fold_left (fun a b => if Qle_bool a b then a else b) l x.
Definition qmax (x : Q) (l : list Q) : Q := fold_left (fun a b => if Qle_bool a b then b else a) l x.

(** sgb.py:133-148 build_bins_equi_width: linspace(min, max, max_bin + 1)[1:-1] *)
Definition build_bins (x : list Q) (max_bin : nat) : list xq :=
  let inf_splits := repeat None (max_bin - 1) in
  match x with
  | a :: ((_ :: _) as r) =>
      let mn := qmin a r in
      let mx := qmax a r in
      if negb (Qle_bool (1 # 1000000000) (mx - mn)) then inf_splits
      else map (fun i => Some (mn + (mx - mn) * inject_Z (Z.of_nat i) / inject_Z (Z.of_nat max_bin))%Q)
               (seq 1 (max_bin - 1))
  | _ => inf_splits
  end.

(** sgb.py:151-154 digitize(x, bins, right=True) for ascending bins *)
Definition bin_index (bins : list xq) (x : Q) : nat := length (filter (fun b => x_lt b x) bins).

(** A party: its samples (rows of features), the bin boundaries of every feature and
    the binned samples. *)
Record party := Party { p_data : list (list Q); p_bins : list (list xq); p_idx : list (list nat) }.

Definition column (d : list (list Q)) (f : nat) : list Q := map (fun row => nth f row 0%Q) d.

(** sgb.py:1762-1783: what SecureBoost.fit computes for a party *)
Definition bin_party (max_bin n_features : nat) (data : list (list Q)) : party :=
  let bins := tab n_features (fun f => build_bins (column data f) max_bin) in
  Party data bins (map (fun row => tab n_features (fun f => bin_index (nth f bins []) (nth f row 0%Q))) data).

(** ** Histograms and split search *)

Definition gh := (Q * Q)%type.
Definition gadd (a b : gh) : gh := (fst a + fst b, snd a + snd b)%Q.
Definition gsub (a b : gh) : gh := (fst a - fst b, snd a - snd b)%Q.
Definition gzero : gh := (0%Q, 0%Q).
Definition gsum (l : list gh) : gh := fold_right gadd gzero l.

(** jax.ops.segment_sum: indices outside [0, num) are dropped *)
Definition segment_sum (num : nat) (ids : list Z) (vals : list gh) : list gh :=
  tab num (fun s => gsum (map snd (filter (fun p => (fst p =? Z.of_nat s)%Z) (combine ids vals)))).

(** sgb.py:162-182: one feature, all nodes of the level, flattened *)
Definition local_hist (n_nodes n_buckets : nat) (ghs : list gh) (bt_local : list Z) (bins_one : list nat) : list gh :=
  let combined := map (fun p => (fst p * Z.of_nat n_buckets + Z.of_nat (snd p))%Z) (combine bt_local bins_one) in
  let valid := map (fun p => if (0 <=? snd p)%Z then fst p else gzero) (combine ghs bt_local) in
  segment_sum (n_nodes * n_buckets) combined valid.

(** cumsum along the buckets *)
Fixpoint cumsum_from (acc : gh) (l : list gh) : list gh :=
  match l with [] => [] | x :: r => let a := gadd acc x in a :: cumsum_from a r end.
Definition cumsum (l : list gh) : list gh := cumsum_from gzero l.

Record params := Params { reg_lambda : Q; gamma : Q; min_child_weight : Q }.

Definition score (p : params) (x : gh) : Q :=
  (fst x * fst x / (snd x + reg_lambda p + (1 # 1000000000)))%Q.

(** sgb.py:193-207 for one feature: the gains of its n_buckets - 1 thresholds; None is -inf *)
Definition gains_of (p : params) (hist : list gh) : list (option Q) :=
  let total := gsum hist in
  map (fun l =>
         let r := gsub total l in
         if Qle_bool (min_child_weight p) (snd l) && Qle_bool (min_child_weight p) (snd r)
         then Some ((score p l + score p r - score p total) / 2 - gamma p)%Q
         else None)
      (removelast (cumsum hist)).

Definition gain_lt (a b : option Q) : bool :=
  match a, b with
  | _, None => false
  | None, Some _ => true
  | Some x, Some y => negb (Qle_bool y x)
  end.

(** argmax (first maximum) and max of a list *)
Fixpoint argmax_from (i best : nat) (g : option Q) (l : list (option Q)) : nat * option Q :=
  match l with
  | [] => (best, g)
  | x :: r => if gain_lt g x then argmax_from (S i) i x r else argmax_from (S i) best g r
  end.
Definition argmax (l : list (option Q)) : nat * option Q :=
  match l with [] => (0, None) | x :: r => argmax_from 1 0 x r end.

Record split := Split { s_gain : option Q; s_feat : nat; s_thr : nat }.

(** sgb.py:185-211: one node, [hists] has one histogram per feature *)
Definition best_split (p : params) (n_buckets : nat) (hists : list (list gh)) : split :=
  let '(i, g) := argmax (concat (map (gains_of p) hists)) in
  Split g (i / (n_buckets - 1)) (i mod (n_buckets - 1)).

(** bt_level = bt - level_offset, sgb.py:1286-1289 *)
Definition level_offset (level : nat) : nat := 2 ^ level - 1.
Definition bt_level (level : nat) (bt : list nat) : list Z :=
  map (fun b => (Z.of_nat b - Z.of_nat (level_offset level))%Z) bt.

Definition idx_column (P : party) (f : nat) : list nat := map (fun row => nth f row 0) (p_idx P).
Definition n_feats (P : party) : nat := length (p_bins P).

(** sgb.py:813-836 and 214-230: the active party's best splits of a level *)
Definition find_splits_ap (p : params) (n_buckets level : nat) (ghs : list gh) (bt : list nat) (P : party) : list split :=
  let hists := tab (n_feats P) (fun f => local_hist (2 ^ level) n_buckets ghs (bt_level level bt) (idx_column P f)) in
  tab (2 ^ level) (fun node =>
    best_split p n_buckets (map (fun h => firstn n_buckets (skipn (node * n_buckets) h)) hists)).

(** sgb.py:116-119 jnp.round: half to even *)
Definition qround (x : Q) : Z :=
  let f := (Qnum x / Zpos (Qden x))%Z in
  let r := (2 * (Qnum x mod Zpos (Qden x)))%Z in
  if (r <? Zpos (Qden x))%Z then f
  else if (r =? Zpos (Qden x))%Z then (if Z.even f then f else f + 1)%Z
  else (f + 1)%Z.
Definition quantize (scale : positive) (x : Q) : Z := qround (x * inject_Z (Zpos scale)).

(** sgb.py:744-752 one row of the subgroup map *)
Definition members (level node : nat) (bt : list nat) : list bool :=
  map (fun b => (b =? Z.of_nat node)%Z) (bt_level level bt).

(** sgb.py:446-490, 672-736: the decrypted histogram of one node and feature is
    rescaled and then ACCUMULATED over the buckets *)
Definition decrypted_hist (scale : positive) (qg qh : list Z) (mem : list bool) (bins_one : list nat) (n_buckets : nat) : list gh :=
  let g := plain_histogram qg mem bins_one n_buckets in
  let h := plain_histogram qh mem bins_one n_buckets in
  cumsum (map (fun p => (fst p # scale, snd p # scale)) (combine g h)).

(** histograms of a passive party: node -> feature -> bucket *)
Definition hists := list (list (list gh)).

Definition fhe_hists (scale : positive) (qg qh : list Z) (level n_buckets : nat) (nodes : list nat) (bt : list nat) (P : party) : hists :=
  map (fun node => tab (n_feats P) (fun f => decrypted_hist scale qg qh (members level node bt) (idx_column P f) n_buckets)) nodes.

(** sgb.py:970-979 derive_right_and_combine *)
Definition hist_sub (a b : list gh) : list gh := map (fun p => gsub (fst p) (snd p)) (combine a b).
Definition node_sub (a b : list (list gh)) : list (list gh) := map (fun p => hist_sub (fst p) (snd p)) (combine a b).
Definition combine_level (left parent : hists) : hists :=
  concat (map (fun p => [snd p; node_sub (fst p) (snd p)]) (combine parent left)).

(** sgb.py:889-990 *)
Definition pp_hists (scale : positive) (qg qh : list Z) (level n_buckets : nat) (last : hists) (bt : list nat) (P : party) : hists :=
  match level with
  | O => fhe_hists scale qg qh level n_buckets [0] bt P
  | S _ => combine_level (fhe_hists scale qg qh level n_buckets (map (fun i => 2 * i) (seq 0 (2 ^ (level - 1)))) bt P) last
  end.

(** sgb.py:993-1002 *)
Definition find_splits_pp (p : params) (n_buckets : nat) (h : hists) : list split := map (best_split p n_buckets) h.

(** sgb.py:1336-1342: the party with the greatest gain *)
Definition global_best (all : list (list split)) (i : nat) : nat * option Q :=
  argmax (map (fun l => s_gain (nth i l (Split None 0 0))) all).

(** ** Tree state *)

Record tree := Tree {
  t_feat : list (list Z);      (* per party, -1: not this party's split *)
  t_thr : list (list xq);      (* per party *)
  t_val : list Q;
  t_leaf : list bool;
  t_own : list Z
}.

(** a.at[offset + arange(n)].set(vals) *)
Definition set_level {A : Type} (d : A) (level : nat) (vals : list A) (old : list A) : list A :=
  tab (length old) (fun k =>
    if (level_offset level <=? k) && (k <? level_offset level + 2 ^ level)
    then nth (k - level_offset level) vals d else nth k old d).

(** sgb.py:755-763 *)
Definition is_new_leaf (g : option Q) : bool := match g with Some x => Qle_bool x 0 | None => true end.

(** sgb.py:1085-1096 and 1105-1120 *)
Definition update_feats (pid : nat) (level : nat) (sp : list split) (leaf : list bool) (own : list Z) (feats : list Z) : list Z :=
  let tmp := set_level (-1)%Z level (map (fun s => Z.of_nat (s_feat s)) sp) feats in
  tab (length tmp) (fun k => if nth k leaf false then (-1)%Z
                             else if (nth k own (-1) =? Z.of_nat pid)%Z then nth k tmp (-1)%Z else (-1)%Z).
Definition update_thrs (pid : nat) (level : nat) (bins : list (list xq)) (sp : list split) (leaf : list bool) (own : list Z) (thrs : list xq) : list xq :=
  let best := map (fun s => jget None (jget [] bins (Z.of_nat (s_feat s))) (Z.of_nat (s_thr s))) sp in
  let tmp := set_level None level best thrs in
  tab (length tmp) (fun k => if nth k leaf false then None
                             else if (nth k own (-1) =? Z.of_nat pid)%Z then nth k tmp None else None).

(** sgb.py:766-783 *)
Definition update_bt (level : nat) (leaf : list bool) (idx : list (list nat)) (sp : list split) (bt : list nat) : list nat :=
  tab (length bt) (fun j =>
    let b := nth j bt 0 in
    let s := jget (Split None 0 0) sp (Z.of_nat b - Z.of_nat (level_offset level)) in
    let sample_bin := jget 0 (nth j idx []) (Z.of_nat (s_feat s)) in
    if nth b leaf false then b
    else if sample_bin <=? s_thr s then 2 * b + 1 else 2 * b + 2).

(** sgb.py:1161-1181 *)
Definition merge_bt (level : nat) (bt : list nat) (all_tmp : list (list nat)) (best_party : list nat) : list nat :=
  fold_left (fun acc i =>
      tab (length bt) (fun j =>
        if nth j bt 0 =? level_offset level + i then nth j (nth (nth i best_party 0) all_tmp []) 0
        else nth j acc 0))
    (seq 0 (2 ^ level)) bt.

(** the state between levels; [l_log] is a ghost: for every level the splits proposed
    by all the parties and the winning party and gain of every node *)
Record lstate := LState {
  l_bt : list nat; l_leaf : list bool; l_own : list Z;
  l_feat : list (list Z); l_thr : list (list xq); l_hists : list hists;
  l_log : list (list (list split))
}.

Definition dparty := Party [] [] [].

(** sgb.py:1274-1367 one level *)
Definition level_step (p : params) (scale : positive) (n_buckets : nat) (ghs : list gh) (qg qh : list Z)
    (parties : list party) (level : nat) (s : lstate) : lstate :=
  let np := length parties in
  let ap := find_splits_ap p n_buckets level ghs (l_bt s) (nth 0 parties dparty) in
  let hs := tab np (fun k => match k with
                             | O => []
                             | S _ => pp_hists scale qg qh level n_buckets (nth k (l_hists s) []) (l_bt s) (nth k parties dparty)
                             end) in
  let all := tab np (fun k => match k with O => ap | S _ => find_splits_pp p n_buckets (nth k hs []) end) in
  let best := tab (2 ^ level) (global_best all) in
  let leaf := set_level false level (map (fun b => is_new_leaf (snd b)) best) (l_leaf s) in
  let own := set_level (-1)%Z level (map (fun b => Z.of_nat (fst b)) best) (l_own s) in
  let feat := tab np (fun k => update_feats k level (nth k all []) leaf own (nth k (l_feat s) [])) in
  let thr := tab np (fun k => update_thrs k level (p_bins (nth k parties dparty)) (nth k all []) leaf own (nth k (l_thr s) [])) in
  let tmp := tab np (fun k => update_bt level leaf (p_idx (nth k parties dparty)) (nth k all []) (l_bt s)) in
  LState (merge_bt level (l_bt s) tmp (map fst best)) leaf own feat thr hs (l_log s ++ [all]).

(** sgb.py:1236-1257 *)
Definition init_state (n_parties n_samples max_depth : nat) : lstate :=
  let n_nodes := 2 ^ (max_depth + 1) - 1 in
  LState (repeat 0 n_samples) (repeat false n_nodes) (repeat (-1)%Z n_nodes)
    (repeat (repeat (-1)%Z n_nodes) n_parties) (repeat (repeat None n_nodes) n_parties) (repeat [] n_parties) [].

Definition run_levels (p : params) (scale : positive) (n_buckets : nat) (ghs : list gh) (parties : list party) (max_depth : nat) : lstate :=
  let qg := map (fun x => quantize scale (fst x)) ghs in
  let qh := map (fun x => quantize scale (snd x)) ghs in
  fold_left (fun s level => level_step p scale n_buckets ghs qg qh parties level s)
    (seq 0 max_depth) (init_state (length parties) (length ghs) max_depth).

(** sgb.py:786-805 *)
Definition leaf_values (p : params) (ghs : list gh) (bt : list nat) (leaf : list bool) : list Q :=
  let sums := segment_sum (length leaf) (map Z.of_nat bt) ghs in
  tab (length leaf) (fun k =>
    let s := nth k sums gzero in
    let safe_h := if Qeq_bool (snd s) 0 then 1%Q else snd s in
    if nth k leaf false && negb (Qeq_bool (snd s) 0) then (- fst s / (safe_h + reg_lambda p))%Q else 0%Q).

(** sgb.py:1200-1406; also returned: the nodes of the samples at the end *)
Definition build_tree (p : params) (scale : positive) (n_buckets : nat) (ghs : list gh) (parties : list party) (max_depth : nat) : tree * list nat :=
  let s := run_levels p scale n_buckets ghs parties max_depth in
  let leaf := set_level false max_depth (repeat true (2 ^ max_depth)) (l_leaf s) in
  (Tree (l_feat s) (l_thr s) (leaf_values p ghs (l_bt s) leaf) leaf (l_own s), l_bt s).

(** ** Prediction: sgb.py:1414-1526 *)

Definition add_at (k : nat) (v : nat) (l : list nat) : list nat :=
  tab (length l) (fun i => if i =? k then nth i l 0 + v else nth i l 0).
Definition set_at (k : nat) (v : nat) (l : list nat) : list nat :=
  tab (length l) (fun i => if i =? k then v else nth i l 0).

(** 1440-1465, one sample ([row]) of party [pid] *)
Definition propagate (pid : nat) (row : list Q) (feat : list Z) (thr : list xq) (leaf : list bool) (own : list Z) (i : nat) (locs : list nat) : list nat :=
  let here := nth i locs 0 in
  if negb (nth i leaf false) && (nth i own (-1) =? Z.of_nat pid)%Z then
    let go_left := le_x (jget 0%Q row (nth i feat (-1)%Z)) (nth i thr None) in
    let l1 := add_at (2 * i + 1) (if go_left then here else 0) locs in
    let l2 := add_at (2 * i + 2) (if go_left then 0 else here) l1 in
    set_at i 0 l2
  else if negb (nth i leaf false) then
    set_at i 0 (add_at (2 * i + 2) here (add_at (2 * i + 1) here locs))
  else locs.

(** 1436-1467 *)
Definition locations (pid : nat) (row : list Q) (t : tree) (n_nodes : nat) : list nat :=
  fold_left (fun locs i => propagate pid row (nth pid (t_feat t) []) (nth pid (t_thr t) []) (t_leaf t) (t_own t) i locs)
    (seq 0 (n_nodes / 2)) (tab n_nodes (fun i => if i =? 0 then 1 else 0)).

(** first true position, 0 if there is none (argmax of booleans) *)
Fixpoint first_true (i : nat) (l : list bool) : option nat :=
  match l with [] => None | b :: r => if b then Some i else first_true (S i) r end.

(** 1502-1514; [rows] holds the sample's features at every party *)
Definition predict_tree (t : tree) (n_nodes : nat) (rows : list (list Q)) : Q :=
  let masks := map (fun p => locations (fst p) (snd p) t n_nodes) (combine (seq 0 (length rows)) rows) in
  let final := tab n_nodes (fun k => forallb (fun m => 0 <? nth k m 0) masks && nth k (t_leaf t) false) in
  nth (match first_true 0 final with Some k => k | None => 0 end) (t_val t) 0%Q.

(** sgb.py:1529-1567 and 1666-1675 (the same update during training): logits of a sample *)
Definition predict_logits (init lr : Q) (trees : list tree) (n_nodes : nat) (rows : list (list Q)) : Q :=
  fold_left (fun y t => (y + lr * predict_tree t n_nodes rows)%Q) trees init.
