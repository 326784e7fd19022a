(** * GridDemo: a grid of three times two nodes (C71). *)
From Verif Require Import Base Types Sim Build Heap Lists Reach Steps Registry Spec SpecDuo SpecRoutes Demo Grid GridNet.
Local Open Scope nat_scope.

Definition kw_demo : link_args := mkLinkArgs None 0 0 1000 20 (2 # 10) None 1 1 [] None None None None.
Definition grid_demo : world := match generate_grid_network cfg_det 3 2 kw_demo (empty_world None) with Ok w => w | Err _ => empty_world None end.

Lemma grid_example_lemma :
  generate_grid_network cfg_det 3 2 kw_demo (empty_world None) = Ok grid_demo /\
  node_names grid_demo = ["n(0, 0)"; "n(0, 1)"; "n(1, 0)"; "n(1, 1)"; "n(2, 0)"; "n(2, 1)"]%string /\
  w_nl grid_demo = 14 /\ l_name (L grid_demo 0) = "l(0, 0, 1, 0)"%string /\ l_name (L grid_demo 1) = "l(0, 0, 0, 1)"%string /\
  map (fun l => (l_start (L grid_demo l), l_end (L grid_demo l))) (seq 0 14) =
    [(0, 2); (0, 1); (1, 3); (1, 0); (2, 4); (2, 0); (2, 3); (3, 5); (3, 1); (3, 2); (4, 2); (4, 5); (5, 3); (5, 4)].
Proof. vm_compute. repeat split. Qed.
Lemma grid_apart_lemma : in_grid 3 2 (0, 0) /\ in_grid 3 2 (2, 1) /\ manhattan (0, 0) (2, 1) = 3 /\ acceptable cfg_det kw_demo /\
  generate_grid_network cfg_det 1 1 kw_demo grid_demo = Err ValueError.
Proof.
  split; [split; cbn; lia|]. split; [split; cbn; lia|]. split; [reflexivity|]. split; [eexists; vm_compute; reflexivity|]. vm_compute. reflexivity.
Qed.
(** arguments that addLink refuses are refused here as well; without neighbours no link is made and nothing is refused *)
Lemma grid_refused_lemma :
  generate_grid_network cfg_det 2 1 (mkLinkArgs None 0 0 1000 20 (2 # 10) None 0 1 [] None None None None) (empty_world None) = Err ZeroDivisionError /\
  exists w, generate_grid_network cfg_det 1 1 (mkLinkArgs None 0 0 1000 20 (2 # 10) None 0 1 [] None None None None) (empty_world None) = Ok w.
Proof. split; [vm_compute; reflexivity|eexists; vm_compute; reflexivity]. Qed.
