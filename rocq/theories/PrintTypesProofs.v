(** Graphs printed with types can be read in one way only. *)
From Coq Require Import String Ascii.
From Coq Require Import List Arith Lia Bool.
From Verif Require Import PrintModel PrintSpec PrintProofs PrintTypesModel PrintTypesSpec.
From Verif Require CtxProofs TyStrProofs.
Import ListNotations.
Local Open Scope string_scope.

Lemma ty_prefix t u r r' : ExecKeySpec.clear t -> ExecKeySpec.clear u -> TyStrProofs.stops r -> TyStrProofs.stops r' -> ty_str t ++ r = ty_str u ++ r' -> t = u /\ r = r'.
Proof. intros C C' A B E. exact (TyStrProofs.ty_str_inj t u r r' C C' A B E). Qed.
Lemma value_prefix n t s n' t' s' : clean_value (n, t) -> clean_value (n', t') -> TyStrProofs.stops s -> TyStrProofs.stops s' ->
  (n ++ ": " ++ ty_str t) ++ s = (n' ++ ": " ++ ty_str t') ++ s' -> (n, t) = (n', t') /\ s = s'.
Proof.
  intros (_ & A & C & _) (_ & A' & C' & _) Hs Hs' E. cbn [fst snd] in *. rewrite !app_assoc_s in E. cbn [append] in E.
  apply (cut (fun c => c = ":"%char)) in E; [|intros x Hx ->; exact (A Hx)|intros x Hx ->; exact (A' Hx)|reflexivity|reflexivity]. destruct E as (-> & _ & E). injection E as E.
  apply ty_prefix in E; [|assumption..]. destruct E as (-> & ->). auto.
Qed.
Definition param (x : string * ty) : string := fst x ++ ": " ++ ty_str (snd x).
Lemma join_more x y l s : join ", " (x :: y :: l) ++ s = x ++ String "," (String " " (join ", " (y :: l) ++ s)).
Proof. change (join ", " (x :: y :: l)) with (x ++ ", " ++ join ", " (y :: l)). rewrite !app_assoc_s. reflexivity. Qed.
Lemma param_first x s r : clean_value x -> String ")" r <> param x ++ s.
Proof. intros (A & _) E. unfold param in E. rewrite app_assoc_s in E. refine (name_first (fst x) ")" r _ A _ E). spc. Qed.
Lemma params_join : forall l l' s t, Forall clean_value l -> Forall clean_value l' -> join ", " (map param l) ++ String ")" s = join ", " (map param l') ++ String ")" t -> l = l' /\ s = t.
Proof.
  induction l as [|x l IH]; intros [|y l'] s t H H' E.
  - cbn in E. injection E as ->. auto.
  - exfalso. inversion H'; subst. destruct l'; cbn [map] in E; [cbn [join append] in E|rewrite join_more in E; cbn [join append] in E]; eapply param_first; eassumption.
  - exfalso. inversion H; subst. symmetry in E. destruct l; cbn [map] in E; [cbn [join append] in E|rewrite join_more in E; cbn [join append] in E]; eapply param_first; eassumption.
  - inversion H as [|? ? Hx Hl]; inversion H' as [|? ? Hy Hl']; subst. destruct x as [n u], y as [n' u'], l as [|x2 l], l' as [|y2 l']; cbn [map] in E.
    + cbn [join] in E. unfold param in E. cbn [fst snd] in E. apply value_prefix in E; auto; try reflexivity. destruct E as (-> & E). injection E as ->. auto.
    + exfalso. rewrite join_more in E. cbn [join] in E. unfold param at 1 2 in E; cbn [fst snd] in E; apply value_prefix in E; auto; try reflexivity. destruct E as (_ & E). discriminate E.
    + exfalso. rewrite join_more in E. cbn [join] in E. unfold param at 1 2 in E; cbn [fst snd] in E; apply value_prefix in E; auto; try reflexivity. destruct E as (_ & E). discriminate E.
    + rewrite !join_more in E. unfold param at 1 2 in E; cbn [fst snd] in E; apply value_prefix in E; auto; try reflexivity. destruct E as (-> & E). injection E as E.
      destruct (IH (y2 :: l') s t Hl Hl' E) as (-> & ->). auto.
Qed.
Lemma params_inj i i' s t : Forall clean_value i -> Forall clean_value i' -> format_typed_params i ++ s = format_typed_params i' ++ t -> i = i' /\ s = t.
Proof.
  intros Hi Hi' E. assert (F : forall l s, format_typed_params l ++ s = String "(" (join ", " (map param l) ++ String ")" s)).
  { intros [|x m] u; [reflexivity|]. unfold format_typed_params. rewrite !app_assoc_s. reflexivity. }
  rewrite !F in E. injection E as E. apply params_join in E; assumption.
Qed.
Lemma types_join : forall l l' s t, Forall clean_value l -> Forall clean_value l' -> map fst l = map fst l' ->
  join ", " (map (fun x => ty_str (snd x)) l) ++ String ")" s = join ", " (map (fun x => ty_str (snd x)) l') ++ String ")" t -> l = l' /\ s = t.
Proof.
  induction l as [|[n u] l IH]; intros [|[n' u'] l'] s t H H' M E; try discriminate M.
  - cbn in E. injection E as ->. auto.
  - inversion H as [|? ? (_ & _ & Hx & _) Hl]; inversion H' as [|? ? (_ & _ & Hy & _) Hl']; subst. injection M as -> M. destruct l as [|x2 l], l' as [|y2 l']; try discriminate M; cbn [map snd] in *.
    + cbn [join] in E. apply ty_prefix in E; auto; try reflexivity. destruct E as (-> & E). injection E as ->. auto.
    + rewrite !join_more in E. apply ty_prefix in E; auto; try reflexivity. destruct E as (-> & E). injection E as E.
      destruct (IH (y2 :: l') s t Hl Hl' M E) as (-> & ->). auto.
Qed.
Definition top_text (outs : list (string * ty)) (opcode : string) (ins : list string) : string := op_text (map fst outs) opcode ins ++ format_output_types outs.
Lemma names_clean l : Forall clean_value l -> Forall clean_name (map fst l).
Proof. induction 1 as [|x l (A & _) _ IH]; constructor; auto. Qed.
Lemma top_text_inj o c i o' c' i' s t : Forall clean_value o -> clean_name c -> Forall clean_name i -> Forall clean_value o' -> clean_name c' -> Forall clean_name i' -> TyStrProofs.stops s -> TyStrProofs.stops t ->
  top_text o c i ++ s = top_text o' c' i' ++ t -> o = o' /\ c = c' /\ i = i' /\ s = t.
Proof.
  intros Ho Hc Hi Ho' Hc' Hi' Hs Ht E. unfold top_text in E. rewrite !app_assoc_s in E. apply op_text_inj in E; try assumption; try (apply names_clean; assumption).
  destruct E as (M & -> & -> & E). cut (o = o' /\ s = t); [intros (-> & ->); auto|].
  destruct o as [|[n u] [|x2 o]], o' as [|[n' u'] [|y2 o']]; try discriminate M.
  - auto.
  - injection M as ->. unfold format_output_types in E. cbn [snd] in E. rewrite !app_assoc_s in E. apply app_inv_s in E. inversion Ho as [|? ? (_ & _ & Hx & _) _]; inversion Ho' as [|? ? (_ & _ & Hy & _) _]; subst.
    apply ty_prefix in E; auto. destruct E as (-> & ->). auto.
  - unfold format_output_types in E. rewrite !app_assoc_s in E. apply app_inv_s in E. apply types_join in E; assumption.
Qed.
Lemma op_not_return o c i s outs : Forall clean_value o -> Forall clean_name outs -> top_text o c i ++ s <> "return " ++ join ", " outs.
Proof. intros Ho Hs E. unfold top_text in E. rewrite app_assoc_s in E. exact (PrintProofs.op_not_return _ _ _ _ _ (names_clean o Ho) Hs E). Qed.
Lemma op_not_close o c i s : Forall clean_value o -> top_text o c i ++ s <> "}".
Proof. intros Ho E. unfold top_text in E. rewrite app_assoc_s in E. exact (PrintProofs.op_not_close _ _ _ _ (names_clean o Ho) E). Qed.
Lemma one_ty t : ~ In (ascii_of_nat 10) (list_ascii_of_string (ty_str t)) -> one_line (ty_str t).
Proof. intros H c Hc ->. exact (H Hc). Qed.
Lemma one_joined l : Forall one_line l -> one_line (join ", " l).
Proof.
  induction 1 as [|x l Hx Hl IH]; [apply one_lit; reflexivity|]. destruct l; [exact Hx|]. change (join ", " (x :: s :: l)) with (x ++ ", " ++ join ", " (s :: l)).
  apply one_app; [exact Hx|apply one_app; [apply one_lit; reflexivity|exact IH]].
Qed.
Lemma one_types l : Forall clean_value l -> one_line (format_output_types l).
Proof.
  intros H. assert (K : Forall one_line (map (fun x => ty_str (snd x)) l)) by (induction H as [|x m (_ & _ & _ & A) _ IH]; constructor; [apply one_ty, A|exact IH]).
  destruct l as [|x [|y l]]; [apply one_lit; reflexivity|inversion K; apply one_app; [apply one_lit; reflexivity|assumption]|].
  apply one_app; [apply one_lit; reflexivity|apply one_app; [apply one_joined, K|apply one_lit; reflexivity]].
Qed.
Lemma one_top o c i : Forall clean_value o -> clean_name c -> Forall clean_name i -> one_line (top_text o c i).
Proof. intros Ho Hc Hi. apply one_app; [apply one_op; [apply names_clean, Ho|exact Hc|exact Hi]|apply one_types, Ho]. Qed.
Lemma one_tparams l : Forall clean_value l -> one_line (format_typed_params l).
Proof.
  intros H. destruct l as [|x l]; [apply one_lit; reflexivity|]. apply one_app; [apply one_lit; reflexivity|apply one_app; [|apply one_lit; reflexivity]].
  apply one_joined. induction H as [|y m (A & _ & _ & B) _ IH]; constructor; [|exact IH]. apply one_app; [apply one_name, A|apply one_app; [apply one_lit; reflexivity|apply one_ty, B]].
Qed.

(* ---------------------------------------------------------------- lines *)
Section Lines.
Variable size : nat.
Definition all_ops (level : nat) (l : list top) : list string := flat_map (typed_op_lines size level) l.
Definition all_graphs (level : nat) (l : list tgraph) : list string := flat_map (typed_lines size level) l.
Lemma typed_lines_eq level i o u : typed_lines size level (TGraph i o u) =
  (line size level (format_typed_params i ++ " {") :: all_ops (S level) o ++ (match u with [] => [] | _ => [line size (S level) ("return " ++ join ", " u)] end) ++ [line size level "}"])%list.
Proof. cbn [typed_lines]. reflexivity. Qed.
Lemma typed_op_lines_eq level o c i r : typed_op_lines size level (TOp o c i r) =
  match r with [] => [line size level (top_text o c i)] | _ => (line size level (top_text o c i ++ " {") :: all_graphs (S level) r ++ [line size level "}"])%list end.
Proof. assert (K : top_text o c i = format_outputs (map fst o) ++ " = " ++ c ++ "(" ++ join ", " i ++ ")" ++ format_output_types o) by (unfold top_text, op_text; rewrite !app_assoc_s; reflexivity). rewrite K. destruct r; reflexivity. Qed.

Section Ind.
Variables (P : tgraph -> Prop) (Q : top -> Prop).
Hypothesis HG : forall i o u, Forall Q o -> P (TGraph i o u).
Hypothesis HO : forall o c i r, Forall P r -> Q (TOp o c i r).
Fixpoint graph_ind2 (g : tgraph) : P g :=
  match g with TGraph i o u => HG i o u ((fix go (l : list top) : Forall Q l := match l with [] => Forall_nil _ | x :: l' => Forall_cons _ (op_ind2 x) (go l') end) o) end
with op_ind2 (o : top) : Q o :=
  match o with TOp o c i r => HO o c i r ((fix go (l : list tgraph) : Forall P l := match l with [] => Forall_nil _ | x :: l' => Forall_cons _ (graph_ind2 x) (go l') end) r) end.
End Ind.

Definition PG (g : tgraph) : Prop := tclean g -> forall level g' r r', tclean g' -> app (typed_lines size level g) r = app (typed_lines size level g') r' -> g = g' /\ r = r'.
Definition PO (o : top) : Prop := tclean_op o -> forall level o' r r', tclean_op o' -> app (typed_op_lines size level o) r = app (typed_op_lines size level o') r' -> o = o' /\ r = r'.

Lemma line_inj level a b : line size level a = line size level b -> a = b.
Proof. apply app_inv_s. Qed.
(** the lines after the operations of a tgraph start with one of these *)
Definition tail_line (level : nat) (x : string) : Prop := x = line size level "}" \/ exists u, Forall clean_name u /\ x = line size (S level) ("return " ++ join ", " u).
Lemma op_first level o c i r : exists s rest, typed_op_lines size level (TOp o c i r) = (line size level (top_text o c i ++ s) :: rest)%list.
Proof. rewrite typed_op_lines_eq. destruct r; [exists "", []; rewrite app_nil_s; reflexivity|]. eexists. eexists. reflexivity. Qed.
Lemma graph_first level i o u : exists rest, typed_lines size level (TGraph i o u) = (line size level (format_typed_params i ++ " {") :: rest)%list.
Proof. rewrite typed_lines_eq. eexists. reflexivity. Qed.
Lemma line_S level a : line size (S level) a = line size level (spaces size ++ a).
Proof.
  unfold line. rewrite <- app_assoc_s. f_equal. cbn [Nat.mul]. rewrite Nat.add_comm. generalize (level * size). induction n as [|n IH]; [reflexivity|]. cbn. now rewrite IH.
Qed.
Lemma close_deeper level a : line size level "}" = line size (S level) a -> a = "}".
Proof. rewrite line_S. intros E. apply line_inj in E. destruct size as [|z]; [cbn in E; congruence|cbn in E; discriminate E]. Qed.
Lemma tail_not_op level x o c i s : tail_line level x -> Forall clean_value o -> x <> line size (S level) (top_text o c i ++ s).
Proof.
  intros [->|(u & Hu & ->)] Ho E.
  - apply close_deeper in E. exact (op_not_close _ _ _ _ Ho E).
  - apply line_inj in E. symmetry in E. exact (op_not_return _ _ _ _ _ Ho Hu E).
Qed.
Lemma ops_inj : forall l, Forall PO l -> Forall tclean_op l -> forall level l' x xs x' xs', Forall tclean_op l' -> tail_line level x -> tail_line level x' ->
  app (all_ops (S level) l) (x :: xs) = app (all_ops (S level) l') (x' :: xs') -> l = l' /\ x = x' /\ xs = xs'.
Proof.
  induction l as [|o l IH]; intros F C level l' x xs x' xs' C' T T' E; destruct l' as [|o' l']; cbn [all_ops flat_map app] in E.
  - injection E as -> ->. auto.
  - exfalso. inversion C' as [|? ? Co' _]; subst. destruct o' as [a b c r]. inversion Co'; subst. destruct (op_first (S level) a b c r) as (s & rest & K). rewrite K in E. cbn [app] in E. injection E as E _.
    refine (tail_not_op level _ a b c s _ _ E); assumption.
  - exfalso. inversion C as [|? ? Co _]; subst. destruct o as [a b c r]. inversion Co; subst. destruct (op_first (S level) a b c r) as (s & rest & K). rewrite K in E. cbn [app] in E. injection E as E _.
    symmetry in E. refine (tail_not_op level _ a b c s _ _ E); assumption.
  - inversion F as [|? ? Fo Fl]; inversion C as [|? ? Co Cl]; inversion C' as [|? ? Co' Cl']; subst. rewrite <- !app_assoc in E. apply Fo in E; [|exact Co|exact Co']. destruct E as (-> & E).
    destruct (IH Fl Cl level l' x xs x' xs' Cl' T T' E) as (-> & -> & ->). auto.
Qed.
Lemma graphs_inj : forall l, Forall PG l -> Forall tclean l -> forall level l' xs xs', Forall tclean l' ->
  app (all_graphs (S level) l) (line size level "}" :: xs) = app (all_graphs (S level) l') (line size level "}" :: xs') -> l = l' /\ xs = xs'.
Proof.
  assert (N : forall level i s, line size level "}" <> line size (S level) (format_typed_params i ++ s)).
  { intros level i s E. apply close_deeper in E. destruct i; discriminate E. }
  induction l as [|g l IH]; intros F C level l' xs xs' C' E; destruct l' as [|g' l']; cbn [all_graphs flat_map app] in E.
  - injection E as ->. auto.
  - exfalso. destruct g' as [i o u]. destruct (graph_first (S level) i o u) as (rest & K). rewrite K in E. cbn [app] in E. injection E as E _. exact (N _ _ _ E).
  - exfalso. destruct g as [i o u]. destruct (graph_first (S level) i o u) as (rest & K). rewrite K in E. cbn [app] in E. injection E as E _. symmetry in E. exact (N _ _ _ E).
  - inversion F as [|? ? Fo Fl]; inversion C as [|? ? Co Cl]; inversion C' as [|? ? Co' Cl']; subst. rewrite <- !app_assoc in E. apply Fo in E; [|exact Co|exact Co']. destruct E as (-> & E).
    destruct (IH Fl Cl level l' xs xs' Cl' E) as (-> & ->). auto.
Qed.
Lemma cons_inv (a b : string) l l' : a :: l = b :: l' -> a = b /\ l = l'. Proof. intros E. now inversion E. Qed.
Definition return_lines (level : nat) (u : list string) : list string := match u with [] => [] | _ => [line size (S level) ("return " ++ join ", " u)] end.
Lemma tail_exists level u r : Forall clean_name u -> exists x xs, app (return_lines level u) (line size level "}" :: r) = x :: xs /\ tail_line level x.
Proof. intros H. destruct u as [|a u]; eexists; eexists; (split; [reflexivity|]); [left; reflexivity|right; exists (a :: u); auto]. Qed.
Lemma return_inj level u u' r r' : Forall clean_name u -> Forall clean_name u' -> app (return_lines level u) (line size level "}" :: r) = app (return_lines level u') (line size level "}" :: r') -> u = u' /\ r = r'.
Proof.
  intros H H' E. destruct u as [|a u], u' as [|a' u']; unfold return_lines in E; cbn [app] in E.
  - injection E as ->. auto.
  - exfalso. injection E as E _. apply close_deeper in E. discriminate E.
  - exfalso. injection E as E _. symmetry in E. apply close_deeper in E. discriminate E.
  - apply cons_inv in E. destruct E as (E & E2). apply cons_inv in E2. destruct E2 as (_ & ->). apply line_inj in E. apply app_inv_s in E. apply (f_equal (fun s => s ++ String "=" "")) in E.
    apply cut_join in E; [|assumption|assumption|spc|spc|discriminate|discriminate]. destruct E as (-> & _). auto.
Qed.
Lemma all_PG : forall g, PG g.
Proof.
  apply (graph_ind2 PG PO).
  - intros i o u F C level [i' o' u'] r r' C' E. inversion C as [? ? ? Ci Co Cu]; inversion C' as [? ? ? Ci' Co' Cu']; subst. rewrite !typed_lines_eq in E. fold (return_lines level u) (return_lines level u') in E. cbn [app] in E.
    rewrite <- !app_assoc in E. cbn [app] in E. apply cons_inv in E. destruct E as (E1 & E2). apply line_inj in E1. apply params_inj in E1; [|assumption|assumption]. destruct E1 as (-> & _).
    destruct (tail_exists level u r Cu) as (x & xs & K & T). destruct (tail_exists level u' r' Cu') as (x' & xs' & K' & T'). rewrite K, K' in E2.
    destruct (ops_inj o F Co level o' x xs x' xs' Co' T T' E2) as (-> & -> & ->). rewrite <- K' in K. apply return_inj in K; [|assumption|assumption]. destruct K as (-> & ->). auto.
  - intros o c i r F C level [o' c' i' r'] s s' C' E. inversion C as [? ? ? ? Co Cc Ci Cr]; inversion C' as [? ? ? ? Co' Cc' Ci' Cr']; subst. rewrite !typed_op_lines_eq in E.
    destruct r as [|g r], r' as [|g' r']; cbn [app] in E; apply cons_inv in E; destruct E as (E1 & E2).
    + apply line_inj in E1. apply (f_equal (fun s => s ++ "")) in E1. apply top_text_inj in E1; try assumption; try exact I; try reflexivity. destruct E1 as (-> & -> & -> & _). auto.
    + exfalso. apply line_inj in E1. rewrite <- (app_nil_s (top_text o c i)) in E1. apply top_text_inj in E1; try assumption; try exact I; try reflexivity. destruct E1 as (_ & _ & _ & E1). discriminate E1.
    + exfalso. apply line_inj in E1. rewrite <- (app_nil_s (top_text o' c' i')) in E1. apply top_text_inj in E1; try assumption; try exact I; try reflexivity. destruct E1 as (_ & _ & _ & E1). discriminate E1.
    + apply line_inj in E1. apply top_text_inj in E1; try assumption; try exact I; try reflexivity. destruct E1 as (-> & -> & -> & _). rewrite <- !app_assoc in E2. cbn [app] in E2.
      destruct (graphs_inj _ F Cr level _ _ _ Cr' E2) as (-> & ->). auto.
Qed.

Lemma all_one : forall g, tclean g -> forall level, Forall one_line (typed_lines size level g).
Proof.
  assert (L : forall level t, one_line t -> one_line (line size level t)) by (intros; apply one_app; [apply one_spaces|assumption]).
  apply (graph_ind2 (fun g => tclean g -> forall level, Forall one_line (typed_lines size level g)) (fun o => tclean_op o -> forall level, Forall one_line (typed_op_lines size level o))).
  - intros i o u F C level. inversion C as [? ? ? Ci Co Cu]; subst. rewrite typed_lines_eq. constructor; [apply L, one_app; [apply one_tparams, Ci|apply one_lit; reflexivity]|].
    apply Forall_app. split; [|apply Forall_app; split; [|constructor; [apply L, one_lit; reflexivity|constructor]]].
    + unfold all_ops. clear C. induction F as [|x l Hx F IH]; [constructor|]. inversion Co; subst. cbn [flat_map]. apply Forall_app. split; auto.
    + destruct u; constructor; [|constructor]. apply L, one_app; [apply one_lit; reflexivity|apply one_join, Cu].
  - intros o c i r F C level. inversion C as [? ? ? ? Co Cc Ci Cr]; subst. rewrite typed_op_lines_eq. pose proof (one_top o c i Co Cc Ci) as Ho. destruct r as [|g r]; [constructor; [apply L, Ho|constructor]|].
    constructor; [apply L, one_app; [exact Ho|apply one_lit; reflexivity]|]. apply Forall_app. split; [|constructor; [apply L, one_lit; reflexivity|constructor]].
    unfold all_graphs. clear C. induction F as [|x l Hx F IH]; [constructor|]. inversion Cr; subst. cbn [flat_map]. apply Forall_app. split; auto.
Qed.
Lemma format_inj g g' : tclean g -> tclean g' -> format_typed_graph size g = format_typed_graph size g' -> g = g'.
Proof.
  intros C C' E. unfold format_typed_graph in E. apply join_lines in E.
  - apply (f_equal (fun l => app l [])) in E. apply (all_PG g C 0 g' [] [] C' E).
  - destruct g as [i o u]. rewrite typed_lines_eq. discriminate.
  - destruct g' as [i o u]. rewrite typed_lines_eq. discriminate.
  - apply all_one, C.
  - apply all_one, C'.
Qed.
End Lines.
