(** * AreaDemo: demand between groups of nodes. *)
From Verif Require Import Base Types Sim Build Tac Reach Steps Spec Registry Spatial Demand SpecArea AreaDemand Demo MotionDemo.
Local Open Scope string_scope.
Local Open Scope nat_scope.

(** two origins, two destinations, and a node in between *)
Definition area_net : list op :=
  [ node_ "a"; node_ "b"; node_ "m"; node_ "c"; node_ "d"; link_ "am" 0 2 500; link_ "bm" 1 2 500; link_ "mc" 2 3 500; link_ "md" 2 4 500 ].
Definition ab : list key := [KName "a"; KName "b"; KName "d"].
Definition cd : list key := [KName "a"; KName "c"; KOwn 4].
Definition veh_is (w : world) (v : vid) (o d : nid) (t : Z) : bool :=
  match v_dest (V w v) with Some x => Nat.eqb x d && Nat.eqb (v_orig (V w v)) o && Z.eqb (v_dep (V w v)) t | None => false end.
Definition dr : draws := mkDraws (fun i => i) (fun i => i + 1) (fun i => i).

(** 44 vehicles in 100 s: two platoons for each of the four pairs, after 50 s and after 95 s, that is, 40 vehicles. Nodes without outlinks (inlinks) are left out. *)
Lemma shares_example : exists w, reachable cfg_det w /\
  match adddemand_nodes2nodes cfg_det ab cd 0 100 (-1) 44 w with
  | Ok w' => Nat.eqb (w_nv w') (w_nv w + 8) && veh_is w' 0 0 3 9 && veh_is w' 1 0 3 18 && veh_is w' 2 0 4 9 && veh_is w' 4 1 3 9 && veh_is w' 7 1 4 18
  | Err _ => false end = true.
Proof. apply (play_witness cfg_det area_net (Some 200%Q)). vm_compute. reflexivity. Qed.
(** 44 vehicles in 100 s: 8 platoons, evenly spaced *)
Lemma scatter_example : exists w, reachable cfg_det w /\
  match adddemand_nodes2nodes2 cfg_det dr ab cd 0 100 (-1) 44 w with
  | Ok w' => Nat.eqb (w_nv w') (w_nv w + 8) && veh_is w' 0 0 4 0 && veh_is w' 1 1 3 2 && veh_is w' 2 0 4 5 && veh_is w' 7 1 3 20
  | Err _ => false end = true.
Proof. apply (play_witness cfg_det area_net (Some 200%Q)). vm_compute. reflexivity. Qed.

(** 16 vehicles for four pairs: no pair gets a whole platoon, and no vehicle is created. *)
Lemma truncated : exists w, reachable cfg_det w /\
  match adddemand_nodes2nodes cfg_det ab cd 0 100 (-1) 16 w with Ok w' => Nat.eqb (w_nv w') (w_nv w) | Err _ => false end = true.
Proof. apply (play_witness cfg_det area_net (Some 200%Q)). vm_compute. reflexivity. Qed.
(** a node that is both origin and destination: vehicles from it to itself *)
Lemma to_itself : exists w, reachable cfg_det w /\
  match adddemand_nodes2nodes cfg_det [KName "a"; KName "m"] [KName "m"; KName "c"] 0 100 (-1) 80 w with
  | Ok w' => Nat.ltb (w_nv w + 8) (w_nv w') && veh_is w' (w_nv w + 8) 2 2 4 | Err _ => false end = true.
Proof. apply (play_witness cfg_det area_net (Some 200%Q)). vm_compute. reflexivity. Qed.
(** the only destination is an origin as well: ValueError for some draws *)
Lemma no_other : exists w, reachable cfg_det w /\
  (match adddemand_nodes2nodes2 cfg_det dr [KName "m"; KName "a"] [KName "m"] 0 100 (-1) 44 w with Err ValueError => true | _ => false end &&
   match adddemand_nodes2nodes2 cfg_det (mkDraws (fun _ => 1) (fun _ => 0) (fun _ => 0)) [KName "m"; KName "a"] [KName "m"] 0 100 (-1) 44 w with
   | Ok w' => Nat.eqb (w_nv w') (w_nv w + 8) | _ => false end)%bool = true.
Proof. apply (play_witness cfg_det area_net (Some 200%Q)). vm_compute. reflexivity. Qed.
(** the last platoon departs at t_end; adddemand never does *)
Lemma at_end : exists w, reachable cfg_det w /\
  match adddemand_nodes2nodes2 cfg_det dr ab cd 0 100 (-1) 44 w with Ok w' => veh_is w' (w_nv w' - 1) 1 3 (qtrunc (100 / dt cfg_det)) | Err _ => false end = true.
Proof. apply (play_witness cfg_det area_net (Some 200%Q)). vm_compute. reflexivity. Qed.
