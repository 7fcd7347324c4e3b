(** Printed graphs can be read in one way only. *)
From Coq Require Import String Ascii.
From Coq Require Import List Arith Lia Bool.
From Verif Require Import PrintModel PrintSpec.
Import ListNotations.
Local Open Scope string_scope.

Definition spec (c : ascii) : Prop := In c special.
Lemma app_nil_s s : s ++ "" = s. Proof. induction s as [|c s IH]; cbn; [reflexivity|]. now rewrite IH. Qed.
Lemma app_assoc_s a b c : (a ++ b) ++ c = a ++ (b ++ c). Proof. induction a as [|x a IH]; cbn; [reflexivity|]. now rewrite IH. Qed.
Lemma app_inv_s a b c : a ++ b = a ++ c -> b = c. Proof. induction a as [|x a IH]; cbn; [auto|]. intros H. injection H as H. auto. Qed.
Lemma cut (P : ascii -> Prop) a : forall b c d s t, (forall x, In x (list_ascii_of_string a) -> ~ P x) -> (forall x, In x (list_ascii_of_string b) -> ~ P x) -> P c -> P d ->
  a ++ String c s = b ++ String d t -> a = b /\ c = d /\ s = t.
Proof.
  induction a as [|x a IH]; intros [|y b] c d s t Ha Hb Hc Hd E; cbn in E.
  - injection E as -> ->. auto.
  - exfalso. injection E as -> E. apply (Hb y); [left; reflexivity|exact Hc].
  - exfalso. injection E as -> E. apply (Ha d); [left; reflexivity|exact Hd].
  - injection E as <- E. destruct (IH b c d s t) as (-> & -> & ->); auto; intros z Hz; [apply Ha|apply Hb]; right; exact Hz.
Qed.
Lemma cut_name a b c d s t : clean_name a -> clean_name b -> spec c -> spec d -> a ++ String c s = b ++ String d t -> a = b /\ c = d /\ s = t.
Proof. intros (_ & A) (_ & B). apply (cut spec); assumption. Qed.
Lemma name_first a c s t : clean_name a -> spec c -> String c s <> a ++ t.
Proof. intros (N & A) Hc E. destruct a as [|x a]; [congruence|]. cbn in E. injection E as -> E. apply (A x); [left; reflexivity|exact Hc]. Qed.
Lemma sp c : existsb (Ascii.eqb c) special = true -> spec c.
Proof. intros H. apply existsb_exists in H. destruct H as (x & Hx & E). apply Ascii.eqb_eq in E. subst. exact Hx. Qed.
Ltac spc := apply sp; reflexivity.

Lemma cut_join l : forall l' c d s t, Forall clean_name l -> Forall clean_name l' -> spec c -> spec d -> c <> ","%char -> d <> ","%char ->
  join ", " l ++ String c s = join ", " l' ++ String d t -> l = l' /\ c = d /\ s = t.
Proof.
  assert (J : forall x y l c s, join ", " (x :: y :: l) ++ String c s = x ++ String "," (String " " (join ", " (y :: l) ++ String c s))).
  { intros. cbn [join]. rewrite !app_assoc_s. reflexivity. }
  induction l as [|x l IH]; intros [|y l'] c d s t Hl Hl' Hc Hd Nc Nd E.
  - cbn in E. injection E as -> ->. auto.
  - exfalso. inversion Hl'; subst. destruct l' as [|y' l']; [cbn [join append] in E; eapply name_first; [eassumption|exact Hc|exact E]|]. rewrite J in E. cbn [join append] in E. eapply name_first; [eassumption|exact Hc|exact E].
  - exfalso. inversion Hl; subst. symmetry in E. destruct l as [|y' l]; [cbn [join append] in E; eapply name_first; [eassumption|exact Hd|exact E]|]. rewrite J in E. cbn [join append] in E. eapply name_first; [eassumption|exact Hd|exact E].
  - inversion Hl as [|? ? Hx Hl2]; inversion Hl' as [|? ? Hy Hl2']; subst. destruct l as [|x2 l], l' as [|y2 l'].
    + cbn [join] in E. destruct (cut_name _ _ _ _ _ _ Hx Hy Hc Hd E) as (-> & -> & ->). auto.
    + exfalso. rewrite J in E. change (join ", " [x]) with x in E. destruct (cut_name x y c "," s _ Hx Hy Hc ltac:(spc) E) as (_ & A & _). congruence.
    + exfalso. rewrite J in E. change (join ", " [y]) with y in E. destruct (cut_name x y "," d _ t Hx Hy ltac:(spc) Hd E) as (_ & A & _). congruence.
    + rewrite !J in E. destruct (cut_name x y "," "," _ _ Hx Hy ltac:(spc) ltac:(spc) E) as (-> & _ & E2). injection E2 as E2.
      destruct (IH (y2 :: l') c d s t Hl2 Hl2' Hc Hd Nc Nd E2) as (-> & -> & ->). auto.
Qed.
Lemma cut_outputs l l' s t : Forall clean_name l -> Forall clean_name l' -> format_outputs l ++ String " " s = format_outputs l' ++ String " " t -> l = l' /\ s = t.
Proof.
  intros Hl Hl'. assert (F : forall l s, format_outputs l ++ String " " s = match l with [x] => x ++ String " " s | _ => String "[" (join ", " l ++ String "]" (String " " s)) end).
  { intros [|x [|y m]] u; try reflexivity. unfold format_outputs. rewrite !app_assoc_s. reflexivity. }
  rewrite !F. intros E.
  assert (K : forall m m' : list string, (forall z : string, m <> [z]) -> (forall z : string, m' <> [z]) -> Forall clean_name m -> Forall clean_name m' ->
    String "[" (join ", " m ++ String "]" (String " " s)) = String "[" (join ", " m' ++ String "]" (String " " t)) -> m = m' /\ s = t).
  { intros m m' _ _ Hm Hm' E2. injection E2 as E2. destruct (cut_join m m' "]" "]" _ _ Hm Hm' ltac:(spc) ltac:(spc) ltac:(discriminate) ltac:(discriminate) E2) as (-> & _ & E3). injection E3 as ->. auto. }
  destruct l as [|x [|x2 l]], l' as [|y [|y2 l']]; try (apply K; (exact E || assumption || discriminate)).
  - exfalso. inversion Hl'; subst. eapply name_first; [eassumption| |exact E]. spc.
  - exfalso. inversion Hl; subst. symmetry in E. eapply name_first; [eassumption| |exact E]. spc.
  - inversion Hl; inversion Hl'; subst. destruct (cut_name x y " " " " s t) as (-> & _ & ->); auto; spc.
  - exfalso. inversion Hl; subst. symmetry in E. eapply name_first; [eassumption| |exact E]. spc.
  - exfalso. inversion Hl'; subst. eapply name_first; [eassumption| |exact E]. spc.
Qed.
Definition op_text (outs : list string) (opcode : string) (ins : list string) : string := format_outputs outs ++ " = " ++ opcode ++ "(" ++ join ", " ins ++ ")".
Lemma op_text_inj o c i o' c' i' s t : Forall clean_name o -> clean_name c -> Forall clean_name i -> Forall clean_name o' -> clean_name c' -> Forall clean_name i' ->
  op_text o c i ++ s = op_text o' c' i' ++ t -> o = o' /\ c = c' /\ i = i' /\ s = t.
Proof.
  intros Ho Hc Hi Ho' Hc' Hi' E. unfold op_text in E. rewrite !app_assoc_s in E. cbn [append] in E.
  apply cut_outputs in E; [|assumption|assumption]. destruct E as (-> & E). injection E as E.
  apply cut_name in E; [|assumption|assumption|spc|spc]. destruct E as (-> & _ & E).
  apply cut_join in E; [|assumption|assumption|spc|spc|discriminate|discriminate]. destruct E as (-> & _ & E). auto.
Qed.
(** op lines differ from return lines and closing lines *)
Lemma op_not_return o c i s outs : Forall clean_name o -> Forall clean_name outs -> op_text o c i ++ s <> "return " ++ join ", " outs.
Proof.
  intros Ho Hs E. unfold op_text in E. rewrite !app_assoc_s in E. cbn [append] in E.
  assert (R : "return " ++ join ", " outs = format_outputs ["return"] ++ String " " (join ", " outs)) by reflexivity. cbn [append] in R. rewrite R in E.
  apply cut_outputs in E; [|exact Ho|constructor; [split; [discriminate|]|constructor]].
  - destruct E as (_ & E). destruct outs as [|x outs]; [discriminate E|]. inversion Hs; subst. destruct outs as [|y outs]; cbn [join] in E; [rewrite <- (app_nil_s x) in E|]; (eapply name_first; [eassumption| |exact E]); spc.
  - cbn. intros x Hx Hs'. repeat (destruct Hx as [<-|Hx]; [repeat (destruct Hs' as [Hs'|Hs']; [discriminate Hs'|]); exact Hs'|]). exact Hx.
Qed.
Lemma op_not_close o c i s : Forall clean_name o -> op_text o c i ++ s <> "}".
Proof.
  intros Ho E. unfold op_text in E. rewrite !app_assoc_s in E. destruct o as [|x [|y o]]; [discriminate E| |discriminate E].
  inversion Ho; subst. symmetry in E. eapply name_first; [eassumption| |exact E]. spc.
Qed.

(* ---------------------------------------------------------------- lines *)
Section Lines.
Variable size : nat.
Definition all_ops (level : nat) (l : list op) : list string := flat_map (op_lines size level) l.
Definition all_graphs (level : nat) (l : list graph) : list string := flat_map (graph_lines size level) l.
Lemma graph_lines_eq level i o u : graph_lines size level (Graph i o u) =
  (line size level (format_params i ++ " {") :: all_ops (S level) o ++ (match u with [] => [] | _ => [line size (S level) ("return " ++ join ", " u)] end) ++ [line size level "}"])%list.
Proof. cbn [graph_lines]. reflexivity. Qed.
Lemma op_lines_eq level o c i r : op_lines size level (Op o c i r) =
  match r with [] => [line size level (op_text o c i)] | _ => (line size level (op_text o c i ++ " {") :: all_graphs (S level) r ++ [line size level "}"])%list end.
Proof. destruct r; reflexivity. Qed.

Section Ind.
Variables (P : graph -> Prop) (Q : op -> Prop).
Hypothesis HG : forall i o u, Forall Q o -> P (Graph i o u).
Hypothesis HO : forall o c i r, Forall P r -> Q (Op o c i r).
Fixpoint graph_ind2 (g : graph) : P g :=
  match g with Graph i o u => HG i o u ((fix go (l : list op) : Forall Q l := match l with [] => Forall_nil _ | x :: l' => Forall_cons _ (op_ind2 x) (go l') end) o) end
with op_ind2 (o : op) : Q o :=
  match o with Op o c i r => HO o c i r ((fix go (l : list graph) : Forall P l := match l with [] => Forall_nil _ | x :: l' => Forall_cons _ (graph_ind2 x) (go l') end) r) end.
End Ind.

Definition PG (g : graph) : Prop := clean g -> forall level g' r r', clean g' -> app (graph_lines size level g) r = app (graph_lines size level g') r' -> g = g' /\ r = r'.
Definition PO (o : op) : Prop := clean_op o -> forall level o' r r', clean_op o' -> app (op_lines size level o) r = app (op_lines size level o') r' -> o = o' /\ r = r'.

Lemma line_inj level a b : line size level a = line size level b -> a = b.
Proof. apply app_inv_s. Qed.
Lemma params_inj i i' s t : Forall clean_name i -> Forall clean_name i' -> format_params i ++ s = format_params i' ++ t -> i = i' /\ s = t.
Proof.
  intros Hi Hi' E. assert (F : forall l s, format_params l ++ s = String "(" (join ", " l ++ String ")" s)).
  { intros [|x m] u; [reflexivity|]. unfold format_params. rewrite !app_assoc_s. reflexivity. }
  rewrite !F in E. injection E as E. apply cut_join in E; [|assumption|assumption|spc|spc|discriminate|discriminate]. destruct E as (-> & _ & ->). auto.
Qed.
(** the lines after the operations of a graph start with one of these *)
Definition tail_line (level : nat) (x : string) : Prop := x = line size level "}" \/ exists u, Forall clean_name u /\ x = line size (S level) ("return " ++ join ", " u).
Lemma op_first level o c i r : exists s rest, op_lines size level (Op o c i r) = (line size level (op_text o c i ++ s) :: rest)%list.
Proof. rewrite op_lines_eq. destruct r; [exists "", []; rewrite app_nil_s; reflexivity|]. eexists. eexists. reflexivity. Qed.
Lemma graph_first level i o u : exists rest, graph_lines size level (Graph i o u) = (line size level (format_params i ++ " {") :: rest)%list.
Proof. rewrite graph_lines_eq. eexists. reflexivity. Qed.
Lemma line_S level a : line size (S level) a = line size level (spaces size ++ a).
Proof.
  unfold line. rewrite <- app_assoc_s. f_equal. cbn [Nat.mul]. rewrite Nat.add_comm. generalize (level * size). induction n as [|n IH]; [reflexivity|]. cbn. now rewrite IH.
Qed.
Lemma close_deeper level a : line size level "}" = line size (S level) a -> a = "}".
Proof. rewrite line_S. intros E. apply line_inj in E. destruct size as [|z]; [cbn in E; congruence|cbn in E; discriminate E]. Qed.
Lemma tail_not_op level x o c i s : tail_line level x -> Forall clean_name o -> x <> line size (S level) (op_text o c i ++ s).
Proof.
  intros [->|(u & Hu & ->)] Ho E.
  - apply close_deeper in E. exact (op_not_close _ _ _ _ Ho E).
  - apply line_inj in E. symmetry in E. exact (op_not_return _ _ _ _ _ Ho Hu E).
Qed.
Lemma ops_inj : forall l, Forall PO l -> Forall clean_op l -> forall level l' x xs x' xs', Forall clean_op l' -> tail_line level x -> tail_line level x' ->
  app (all_ops (S level) l) (x :: xs) = app (all_ops (S level) l') (x' :: xs') -> l = l' /\ x = x' /\ xs = xs'.
Proof.
  induction l as [|o l IH]; intros F C level l' x xs x' xs' C' T T' E; destruct l' as [|o' l']; cbn [all_ops flat_map app] in E.
  - injection E as -> ->. auto.
  - exfalso. inversion C' as [|? ? Co' _]; subst. destruct o' as [a b c r]. inversion Co'; subst. destruct (op_first (S level) a b c r) as (s & rest & K). rewrite K in E. cbn [app] in E. injection E as E _.
    refine (tail_not_op level _ a b c s _ _ E); assumption.
  - exfalso. inversion C as [|? ? Co _]; subst. destruct o as [a b c r]. inversion Co; subst. destruct (op_first (S level) a b c r) as (s & rest & K). rewrite K in E. cbn [app] in E. injection E as E _.
    symmetry in E. refine (tail_not_op level _ a b c s _ _ E); assumption.
  - inversion F as [|? ? Fo Fl]; inversion C as [|? ? Co Cl]; inversion C' as [|? ? Co' Cl']; subst. rewrite <- !app_assoc in E. apply Fo in E; [|exact Co|exact Co']. destruct E as (-> & E).
    destruct (IH Fl Cl level l' x xs x' xs' Cl' T T' E) as (-> & -> & ->). auto.
Qed.
Lemma graphs_inj : forall l, Forall PG l -> Forall clean l -> forall level l' xs xs', Forall clean l' ->
  app (all_graphs (S level) l) (line size level "}" :: xs) = app (all_graphs (S level) l') (line size level "}" :: xs') -> l = l' /\ xs = xs'.
Proof.
  assert (N : forall level i s, line size level "}" <> line size (S level) (format_params i ++ s)).
  { intros level i s E. apply close_deeper in E. destruct i; discriminate E. }
  induction l as [|g l IH]; intros F C level l' xs xs' C' E; destruct l' as [|g' l']; cbn [all_graphs flat_map app] in E.
  - injection E as ->. auto.
  - exfalso. destruct g' as [i o u]. destruct (graph_first (S level) i o u) as (rest & K). rewrite K in E. cbn [app] in E. injection E as E _. exact (N _ _ _ E).
  - exfalso. destruct g as [i o u]. destruct (graph_first (S level) i o u) as (rest & K). rewrite K in E. cbn [app] in E. injection E as E _. symmetry in E. exact (N _ _ _ E).
  - inversion F as [|? ? Fo Fl]; inversion C as [|? ? Co Cl]; inversion C' as [|? ? Co' Cl']; subst. rewrite <- !app_assoc in E. apply Fo in E; [|exact Co|exact Co']. destruct E as (-> & E).
    destruct (IH Fl Cl level l' xs xs' Cl' E) as (-> & ->). auto.
Qed.
Lemma cons_inv (a b : string) l l' : a :: l = b :: l' -> a = b /\ l = l'. Proof. intros E. now inversion E. Qed.
Definition return_lines (level : nat) (u : list string) : list string := match u with [] => [] | _ => [line size (S level) ("return " ++ join ", " u)] end.
Lemma tail_exists level u r : Forall clean_name u -> exists x xs, app (return_lines level u) (line size level "}" :: r) = x :: xs /\ tail_line level x.
Proof. intros H. destruct u as [|a u]; eexists; eexists; (split; [reflexivity|]); [left; reflexivity|right; exists (a :: u); auto]. Qed.
Lemma return_inj level u u' r r' : Forall clean_name u -> Forall clean_name u' -> app (return_lines level u) (line size level "}" :: r) = app (return_lines level u') (line size level "}" :: r') -> u = u' /\ r = r'.
Proof.
  intros H H' E. destruct u as [|a u], u' as [|a' u']; unfold return_lines in E; cbn [app] in E.
  - injection E as ->. auto.
  - exfalso. injection E as E _. apply close_deeper in E. discriminate E.
  - exfalso. injection E as E _. symmetry in E. apply close_deeper in E. discriminate E.
  - apply cons_inv in E. destruct E as (E & E2). apply cons_inv in E2. destruct E2 as (_ & ->). apply line_inj in E. apply app_inv_s in E. apply (f_equal (fun s => s ++ String "=" "")) in E.
    apply cut_join in E; [|assumption|assumption|spc|spc|discriminate|discriminate]. destruct E as (-> & _). auto.
Qed.
Lemma all_PG : forall g, PG g.
Proof.
  apply (graph_ind2 PG PO).
  - intros i o u F C level [i' o' u'] r r' C' E. inversion C as [? ? ? Ci Co Cu]; inversion C' as [? ? ? Ci' Co' Cu']; subst. rewrite !graph_lines_eq in E. fold (return_lines level u) (return_lines level u') in E. cbn [app] in E.
    rewrite <- !app_assoc in E. cbn [app] in E. apply cons_inv in E. destruct E as (E1 & E2). apply line_inj in E1. apply params_inj in E1; [|assumption|assumption]. destruct E1 as (-> & _).
    destruct (tail_exists level u r Cu) as (x & xs & K & T). destruct (tail_exists level u' r' Cu') as (x' & xs' & K' & T'). rewrite K, K' in E2.
    destruct (ops_inj o F Co level o' x xs x' xs' Co' T T' E2) as (-> & -> & ->). rewrite <- K' in K. apply return_inj in K; [|assumption|assumption]. destruct K as (-> & ->). auto.
  - intros o c i r F C level [o' c' i' r'] s s' C' E. inversion C as [? ? ? ? Co Cc Ci Cr]; inversion C' as [? ? ? ? Co' Cc' Ci' Cr']; subst. rewrite !op_lines_eq in E.
    destruct r as [|g r], r' as [|g' r']; cbn [app] in E; apply cons_inv in E; destruct E as (E1 & E2).
    + apply line_inj in E1. apply (f_equal (fun s => s ++ "")) in E1. apply op_text_inj in E1; try assumption. destruct E1 as (-> & -> & -> & _). auto.
    + exfalso. apply line_inj in E1. rewrite <- (app_nil_s (op_text o c i)) in E1. apply op_text_inj in E1; try assumption. destruct E1 as (_ & _ & _ & E1). discriminate E1.
    + exfalso. apply line_inj in E1. rewrite <- (app_nil_s (op_text o' c' i')) in E1. apply op_text_inj in E1; try assumption. destruct E1 as (_ & _ & _ & E1). discriminate E1.
    + apply line_inj in E1. apply op_text_inj in E1; try assumption. destruct E1 as (-> & -> & -> & _). rewrite <- !app_assoc in E2. cbn [app] in E2.
      destruct (graphs_inj _ F Cr level _ _ _ Cr' E2) as (-> & ->). auto.
Qed.

(* ---------------------------------------------------------------- the text *)
Definition one_line (s : string) : Prop := forall c, In c (list_ascii_of_string s) -> c <> ascii_of_nat 10.
Lemma one_app a b : one_line a -> one_line b -> one_line (a ++ b).
Proof. intros A B c H. assert (E : forall a b, list_ascii_of_string (a ++ b) = (list_ascii_of_string a ++ list_ascii_of_string b)%list) by (induction a0; cbn; intros; [reflexivity|now rewrite IHa0]). rewrite E in H. apply in_app_iff in H. destruct H; auto. Qed.
Lemma one_lit s : existsb (Ascii.eqb (ascii_of_nat 10)) (list_ascii_of_string s) = false -> one_line s.
Proof. intros H c Hc ->. assert (existsb (Ascii.eqb (ascii_of_nat 10)) (list_ascii_of_string s) = true) by (apply existsb_exists; exists (ascii_of_nat 10); split; [exact Hc|apply Ascii.eqb_refl]). congruence. Qed.
Lemma one_name s : clean_name s -> one_line s.
Proof. intros (_ & H) c Hc ->. apply (H _ Hc). cbn. tauto. Qed.
Lemma one_join l : Forall clean_name l -> one_line (join ", " l).
Proof.
  induction 1 as [|x l Hx Hl IH]; [apply one_lit; reflexivity|]. destruct l; [apply one_name, Hx|]. change (join ", " (x :: s :: l)) with (x ++ ", " ++ join ", " (s :: l)).
  apply one_app; [apply one_name, Hx|apply one_app; [apply one_lit; reflexivity|exact IH]].
Qed.
Lemma one_spaces n : one_line (spaces n). Proof. induction n as [|n IH]; [intros c []|]. intros c [<-|Hc]; [discriminate|apply IH, Hc]. Qed.
Lemma one_outputs l : Forall clean_name l -> one_line (format_outputs l).
Proof. intros H. destruct l as [|x [|y l]]; [apply one_lit; reflexivity|inversion H; apply one_name; assumption|]. apply one_app; [apply one_lit; reflexivity|apply one_app; [apply one_join, H|apply one_lit; reflexivity]]. Qed.
Lemma one_params l : Forall clean_name l -> one_line (format_params l).
Proof. intros H. destruct l as [|x l]; [apply one_lit; reflexivity|]. apply one_app; [apply one_lit; reflexivity|apply one_app; [apply one_join, H|apply one_lit; reflexivity]]. Qed.
Lemma one_op o c i : Forall clean_name o -> clean_name c -> Forall clean_name i -> one_line (op_text o c i).
Proof.
  intros Ho Hc Hi. unfold op_text. repeat apply one_app; try (apply one_lit; reflexivity); [apply one_outputs, Ho|apply one_name, Hc|apply one_join, Hi].
Qed.
Lemma all_one : forall g, clean g -> forall level, Forall one_line (graph_lines size level g).
Proof.
  assert (L : forall level t, one_line t -> one_line (line size level t)) by (intros; apply one_app; [apply one_spaces|assumption]).
  apply (graph_ind2 (fun g => clean g -> forall level, Forall one_line (graph_lines size level g)) (fun o => clean_op o -> forall level, Forall one_line (op_lines size level o))).
  - intros i o u F C level. inversion C as [? ? ? Ci Co Cu]; subst. rewrite graph_lines_eq. constructor; [apply L, one_app; [apply one_params, Ci|apply one_lit; reflexivity]|].
    apply Forall_app. split; [|apply Forall_app; split; [|constructor; [apply L, one_lit; reflexivity|constructor]]].
    + unfold all_ops. clear C. induction F as [|x l Hx F IH]; [constructor|]. inversion Co; subst. cbn [flat_map]. apply Forall_app. split; auto.
    + destruct u; constructor; [|constructor]. apply L, one_app; [apply one_lit; reflexivity|apply one_join, Cu].
  - intros o c i r F C level. inversion C as [? ? ? ? Co Cc Ci Cr]; subst. rewrite op_lines_eq. pose proof (one_op o c i Co Cc Ci) as Ho. destruct r as [|g r]; [constructor; [apply L, Ho|constructor]|].
    constructor; [apply L, one_app; [exact Ho|apply one_lit; reflexivity]|]. apply Forall_app. split; [|constructor; [apply L, one_lit; reflexivity|constructor]].
    unfold all_graphs. clear C. induction F as [|x l Hx F IH]; [constructor|]. inversion Cr; subst. cbn [flat_map]. apply Forall_app. split; auto.
Qed.
Lemma join_lines l : forall l', l <> [] -> l' <> [] -> Forall one_line l -> Forall one_line l' -> join newline l = join newline l' -> l = l'.
Proof.
  assert (J : forall x y (l : list string), join newline (x :: y :: l) = x ++ String (ascii_of_nat 10) (join newline (y :: l))) by reflexivity.
  assert (A : forall x y s, one_line x -> x <> y ++ String (ascii_of_nat 10) s).
  { intros x y s H ->. apply (H (ascii_of_nat 10)); [|reflexivity]. clear H. induction y; [left; reflexivity|right; assumption]. }
  induction l as [|x l IH]; intros [|y l'] N N' H H' E; try congruence. inversion H as [|? ? Hx Hl]; inversion H' as [|? ? Hy Hl']; subst. destruct l as [|x2 l], l' as [|y2 l'].
  - cbn [join] in E. now subst.
  - exfalso. rewrite J in E. exact (A _ _ _ Hx E).
  - exfalso. rewrite J in E. symmetry in E. exact (A _ _ _ Hy E).
  - rewrite !J in E. apply (cut (fun c => c = ascii_of_nat 10)) in E; auto. destruct E as (-> & _ & E). f_equal. apply IH; auto; discriminate.
Qed.
Lemma format_inj g g' : clean g -> clean g' -> format_graph size g = format_graph size g' -> g = g'.
Proof.
  intros C C' E. unfold format_graph in E. apply join_lines in E.
  - apply (f_equal (fun l => app l [])) in E. apply (all_PG g C 0 g' [] [] C' E).
  - destruct g as [i o u]. rewrite graph_lines_eq. discriminate.
  - destruct g' as [i o u]. rewrite graph_lines_eq. discriminate.
  - apply all_one, C.
  - apply all_one, C'.
Qed.
End Lines.
