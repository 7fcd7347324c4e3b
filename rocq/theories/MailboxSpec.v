(** What exactly-once delivery means for the visible events of a mailbox. *)
From stdpp Require Import gmap strings.
From Verif Require Import MailboxModel.

(** The successful traffic under one key. *)
Inductive traffic (V : Type) : Type := In_ (v : V) | Out_ (v : V).
Global Arguments In_ {V}. Global Arguments Out_ {V}.
Definition traffic_of {V} (k : bkey) (e : event V) : list (traffic V) :=
  match e with
  | Accepted k' v => if decide (k' = k) then [In_ v] else []
  | Got k' v => if decide (k' = k) then [Out_ v] else []
  | _ => []
  end.
Definition traffic_on {V} (k : bkey) (h : list (event V)) : list (traffic V) := List.flat_map (traffic_of k) h.

(** Messages v1..vn delivered one after the other, possibly followed by one unread message. *)
Definition delivered_in_order {V} (tr : list (traffic V)) (msgs : list V) (unread : option V) : Prop :=
  tr = List.flat_map (fun v => [In_ v; Out_ v]) msgs ++ match unread with Some v => [In_ v] | None => [] end.
