From stdpp Require Import gmap strings.
From Verif Require Import MailboxModel MailboxSpec.

Section M.
  Context {V : Type}.
  Lemma traffic_snoc k (h : list (event V)) e : traffic_on k (h ++ [e]) = traffic_on k h ++ traffic_of k e.
  Proof. unfold traffic_on. rewrite flat_map_app. cbn. now rewrite app_nil_r. Qed.

  Lemma exactly_once t (h : list (event V)) b : history t h b ->
    forall k, exists msgs, delivered_in_order (traffic_on k h) msgs (entries b !! k).
  Proof.
    intros H. induction H as [|h b e b' H IH S]; intros k.
    - exists []. unfold delivered_in_order. cbn. rewrite lookup_empty. reflexivity.
    - destruct (IH k) as [msgs D]. unfold delivered_in_order in *. rewrite traffic_snoc, D. clear D IH.
      destruct S as [b k' v E|b k' v E|b k' v E _|b k' _ _|b k' _ _|b _]; cbn [traffic_of entries].
      + destruct (decide (k' = k)) as [->|N].
        * exists msgs. rewrite lookup_insert, E, app_nil_r. reflexivity.
        * exists msgs. rewrite lookup_insert_ne by exact N. now rewrite app_nil_r.
      + exists msgs. now rewrite app_nil_r.
      + destruct (decide (k' = k)) as [->|N].
        * exists (msgs ++ [v]). rewrite lookup_delete, E, flat_map_app. cbn. rewrite app_nil_r, <- app_assoc. reflexivity.
        * exists msgs. rewrite lookup_delete_ne by exact N. now rewrite app_nil_r.
      + exists msgs. now rewrite app_nil_r.
      + exists msgs. now rewrite app_nil_r.
      + exists msgs. now rewrite app_nil_r.
  Qed.

  Lemma closed_iff t (h : list (event V)) b : history t h b -> (closed b = true <-> In Shutdown h).
  Proof.
    intros H. induction H as [|h b e b' H IH S]; [cbn; intuition discriminate|]. rewrite in_app_iff. cbn.
    destruct S; cbn in *; intuition (try discriminate; auto).
  Qed.

  (** uniqueness of the decomposition *)
  Lemma delivered_unread (tr : list (traffic V)) m1 u1 : delivered_in_order tr m1 u1 -> forall m2 u2, delivered_in_order tr m2 u2 -> m1 = m2 /\ u1 = u2.
  Proof.
    unfold delivered_in_order. revert tr. induction m1 as [|v m1 IH]; intros tr E1 [|w m2] u2 E2; cbn in *; subst.
    - destruct u1, u2; cbn in E2; split; congruence.
    - destruct u1; cbn in E2; discriminate.
    - destruct u2; cbn in E2; discriminate.
    - injection E2 as E2 _ E3. destruct (IH _ eq_refl m2 u2 E3). split; congruence.
  Qed.
End M.
