(** * MotionDemo: scenarios for the motion of vehicles. *)
From Verif Require Import Base Types Sim Build Tac Reach Steps Spec Paths Demo.
Local Open Scope string_scope.
Local Open Scope nat_scope.

Definition sound_b (o : op) (w : world) : bool :=
  match o with OAddLink a => qle 0 (la_len a) && qle 0 (la_ffs a) | _ => true end.
Lemma sound_b_ok : forall o w, sound_b o w = true -> sound_links o w.
Proof.
  intros o w H. unfold sound_links. destruct o; auto. cbn in H. apply andb_true_iff in H. destruct H as [H1 H2].
  apply qle_iff in H1, H2. auto.
Qed.
Definition speed_b (o : op) (w : world) : bool := sound_b o w && match o with OChangeSpeed _ _ => false | _ => true end.
Lemma speed_b_ok : forall o w, speed_b o w = true -> keep_speed o w.
Proof.
  intros o w H. apply andb_true_iff in H. destruct H as [H1 H2]. split; [apply sound_b_ok; exact H1|]. intros l q ->. discriminate.
Qed.
Definition room_b (o : op) (w : world) : bool := sound_b o w &&
  match o with
  | OAddVehicle a => match va_mode a with SingleTrip => true | Taxi => false end
  | OChangeJam _ _ => false
  | _ => true
  end.
Lemma room_b_ok : forall o w, room_b o w = true -> keep_room o w.
Proof.
  intros o w H. apply andb_true_iff in H. destruct H as [H1 H2]. split; [apply sound_b_ok; exact H1|].
  destruct o; auto; [|discriminate]. destruct (va_mode a); [reflexivity|discriminate].
Qed.

(** three nodes in a row, links of 520 m and 500 m, 20 m/s, DELTAT = 5 s: one vehicle *)
Definition row_net : list op :=
  [ node_ "a"; node_ "b"; node_ "c"; link_ "ab" 0 1 520; link_ "bc" 1 2 500; veh_ 0 2 0 ].

(** Crossing a node adds the left-over of the previous timestep to the move of the current one:
    the vehicle is 180 m into the new link one timestep after it stood at the end of the old one. *)
Lemma crossing_example : exists w, reachP cfg_det keep_speed w /\
  (match tick cfg_det w with
   | Ok w' => match v_link (V w 0), v_link (V w' 0) with
              | Some k, Some l => Nat.eqb k 0 && Nat.eqb l 1 && Qeq_bool (v_x (V w 0)) (l_len (L w 0)) &&
                                  Qeq_bool (v_x (V w' 0)) 180 && Qeq_bool (l_u (L w 1) * dt cfg_det) 100 &&
                                  Qeq_bool (v_v (V w' 0)) 20
              | _, _ => false
              end
   | Err _ => false
   end)%bool = true.
Proof.
  apply (playP_witness cfg_det keep_speed speed_b (row_net ++ [OExec (UntilT 30)]) (Some 200%Q));
    [apply speed_b_ok|intro w; split; [exact Logic.I|discriminate]|vm_compute; reflexivity].
Qed.

(** in the middle of a link *)
Lemma moving_example : exists w, reachP cfg_det keep_speed w /\
  (match tick cfg_det w with
   | Ok w' => match v_link (V w 0), v_link (V w' 0) with
              | Some k, Some l => Nat.eqb k 0 && Nat.eqb l 0 && Qeq_bool (v_x (V w 0)) 200 &&
                                  Qeq_bool (v_x (V w' 0)) 300 && Qeq_bool (v_v (V w' 0)) 20
              | _, _ => false
              end
   | Err _ => false
   end)%bool = true.
Proof.
  apply (playP_witness cfg_det keep_speed speed_b (row_net ++ [OExec (UntilT 10)]) (Some 200%Q));
    [apply speed_b_ok|intro w; split; [exact Logic.I|discriminate]|vm_compute; reflexivity].
Qed.

(** A taxi with the same destination several times in its list; its node has a signal. *)
Definition taxi_net (cin : option Q) : list op :=
 [ node_ "Z"; node_ "A"; node_sig "B" [60%Q; 1000%Q]; node_ "C"; link_ "za" 0 1 520;
   OAddLink (mkLinkArgs (Some "ab") 1 2 100 20 (2#10) None 1 1 [1] None cin None None); link_ "bc" 2 3 500;
   taxi_ 0 (Some 2) 0; OAddDest 0 2 None; OAddDest 0 2 None; OAddDest 0 2 None; OAddDest 0 2 None; OAddDest 0 2 None;
   OAddDest 0 2 None; OAddDest 0 2 None; veh_ 0 3 2; veh_ 0 3 6 ].

(** route_next_link still names the link it is on: the taxi jumps from the end of link ab back
    to 25 m on the same link *)
Lemma back_example : exists w, reachable cfg_det w /\
  (match tick cfg_det w with
   | Ok w' => match v_link (V w 0), v_link (V w' 0) with
              | Some k, Some l => Nat.eqb k 1 && Nat.eqb l 1 && Qeq_bool (v_x (V w 0)) 100 && Qeq_bool (v_x (V w' 0)) 25
              | _, _ => false
              end
   | Err _ => false
   end)%bool = true.
Proof. apply (play_witness cfg_det (taxi_net None ++ [OExec (UntilT 65)]) (Some 400%Q)). vm_compute. reflexivity. Qed.

(** ... and with a wider entrance the taxi ends up 50 m ahead of its leader *)
Lemma overtake_example : exists w, reachable cfg_det w /\
  (nlist_eqb (l_vehs (L w 1)) [1; 2; 0] && opt_eqb (v_leader (V w 0)) (Some 2) && (l_lanes (L w 1) =? 1) &&
   Qeq_bool (v_x (V w 0)) 100 && Qeq_bool (v_x (V w 2)) 50 && Qeq_bool (jam_gap cfg_det (L w 1)) 25)%bool = true.
Proof. apply (play_witness cfg_det (taxi_net (Some 10%Q) ++ [OExec (UntilT 65)]) (Some 400%Q)). vm_compute. reflexivity. Qed.

(** change_jam_density to a smaller value: the vehicles already on the link are too close for it *)
Lemma denser_example : exists w, reachable cfg_det w /\
  (nlist_eqb (l_vehs (L w 1)) [0; 1] && opt_eqb (v_leader (V w 1)) (Some 0) &&
   qlt (v_x (V w 0)) (v_x (V w 1) + jam_gap cfg_det (L w 1)) && qlt 0 (l_kappa (L w 1)))%bool = true.
Proof. apply (play_witness cfg_det (taxi_net None ++ [OExec (UntilT 60); OChangeJam 1 (1#10)]) (Some 400%Q)). vm_compute. reflexivity. Qed.

(** a two-lane queue: link ab (100 m, 0.2 veh/m, 2 lanes) in front of a red light *)
Definition queue_net : list op :=
 [ node_ "A"; node_sig "B" [600%Q; 10%Q]; node_ "C";
   OAddLink (mkLinkArgs (Some "ab") 0 1 100 20 (2#10) None 2 1 [1] None None None None); link_lanes "bc" 1 2 500 2;
   OAddDemand 0 2 0 200 (8#10) (-1)%Q ].
Lemma queue_example : exists w, reachP cfg_det keep_room w /\
  (nlist_eqb (l_vehs (L w 0)) [0; 1; 2; 3] && negb (is_nil (n_queue (N w 0))) &&
   opt_eqb (v_leader (V w 3)) (Some 1) && Qeq_bool (v_x (V w 1)) 100 && Qeq_bool (v_x (V w 3)) 50 &&
   Qeq_bool (jam_gap cfg_det (L w 0)) 50 && Qeq_bool (l_kappa (L w 0) * l_len (L w 0)) 20)%bool = true.
Proof.
  apply (playP_witness cfg_det keep_room room_b (queue_net ++ [OExec (UntilT 300)]) (Some 600%Q));
    [apply room_b_ok|intro w; split; exact Logic.I|].
  vm_compute. reflexivity.
Qed.
