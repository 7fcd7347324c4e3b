(** The network of NetModel with faults. *)
From stdpp Require Import gmap.
From Verif Require Import NetSpec NetModel.

(** Steps of the parties and messages, and faults that can happen at any moment:
    - a party dies: its process stops, a local function raises (interpreter.py:943-965 and
      ops.py:46-60 let the exception through), or a receive times out
      (simp_worker/mem.py:117-138, http.py:505-530 raise);
    - a message is lost on its way (http.py:281-324: the request is made by another thread, and
      its failure is not seen by the program that sends).
    A dead party takes no more steps. *)
Inductive faulty_step {M X A : Type} : net M X A -> net M X A -> Prop :=
| f_step : forall s t, net_step s t -> faulty_step s t
| f_dies : forall P c I B o r p x, P !! r = Some p -> faulty_step (Net P c I B o) (Net (<[r := Throw x]> P) c I B o)
| f_lost : forall P c I B o key m, I !! key = Some m -> faulty_step (Net P c I B o) (Net P c (delete key I) B o).
