(** Model of a whole run of topology-independent DANSE: danse_toolbox/d_core.py, lines 152-242
    (TI-DANSE branch of the processing): scheduling, then the loop over the events. *)
From Verif Require Import Base Sched Buffers Tree InNet Online Full TiRun.
From Coq Require Import Reals.

(** d_core.py 155-162, 184-236: [tree_of r] and [ordering_of r] are the oriented tree and its
    leaf-to-root ordering of [prune_wasn_to_tree(wasnObj, forcedRoot=r)] (d_base.py 695).
    The check of the clocks (d_base.py 500-508), profiling and plots are not modelled. *)
Definition ti_danse (tsort : list event -> list event) (c : tcfg) (y : list (list (list R)))
    (tree_of : nat -> otree) (ordering_of : nat -> ordering) (nodes : list tnode) : res tst :=
  do (sched, roots) <- initialize_events tsort (o_p (tc_o c)) (o_nodes (tc_o c)) ordering_of;
  ti_full_run c y (map tree_of roots) sched (ti_start c nodes).
