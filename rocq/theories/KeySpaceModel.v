(** Model of the keys that share a worker's mailboxes: those of the requests' contexts (CtxModel) and
    those of SPU links (backends/channel.py: 75-84, prefix as in spu_state.py: 339). *)
From Coq Require Import List String.
From Verif Require Import CtxModel.
Import ListNotations.
Local Open Scope string_scope.

(** channel.py:75-84 [BaseChannel._make_key] *)
Definition spu_key (tag : string) : string := "spu" +++ ":" +++ tag.
(** request.py:49: the keys a party uses for a request, whatever it spawns and exchanges *)
Definition job_keys (job : string) (ops : list cop) : list string := map snd (snd (crun job ops)).
