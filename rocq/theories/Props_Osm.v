(** * Props_Osm: postprocessing of imported road networks (C60). *)
From Verif Require Import Base Types Sim Osm SpecOsm OsmOK OsmDemo.
Local Open Scope string_scope.
Local Open Scope nat_scope.

(** C60: from a network without loops the postprocessing makes a network without loops, parallel links and isolated nodes, whose nodes are nodes of the old one *)
Theorem C60_network : forall dist th bid k ns ls, network ns ls -> no_loops ls ->
  exists ns' ls', postprocess dist (S k) th bid (ns, ls) = Ok (ns', ls') /\
    network ns' ls' /\ no_loops ls' /\ single_links ls' /\ no_isolated ns' ls' /\ incl ns' ns.
Proof. exact post_lemma. Qed.
Print Assumptions C60_network.

(** a short link, and two parallel links *)
Example C60_network_example : network town_n town_l /\ no_loops town_l /\
  exists ns ls, postprocess line_dist 5 5 true (town_n, town_l) = Ok (ns, ls) /\ ids ns = [0; 2; 3] /\
    rows ls = [("b", 0, 2); ("d", 2, 3); ("b-reverse", 2, 0); ("d-reverse", 3, 2)] /\ map ol_len ls = [Some 100; Some 100; Some 100; Some 100]%Q.
Proof. exact town_example. Qed.

(** C60: the length of every link is the distance between its nodes *)
Theorem C60_lengths : forall dist th bid k ns ls ns' ls', network ns ls -> no_loops ls -> bid = false \/ sym dist -> postprocess dist (S k) th bid (ns, ls) = Ok (ns', ls') ->
  forall l, In l ls' -> exists p q x, at_pos ns (ol_from l) p /\ at_pos ns (ol_to l) q /\ ol_len l = Some x /\ (x == dist p q)%Q.
Proof. exact length_lemma. Qed.
Print Assumptions C60_lengths.

(** C60: lanes, speeds and names are those of old links *)
Theorem C60_attributes : forall dist th bid k ns ls ns' ls', postprocess dist k th bid (ns, ls) = Ok (ns', ls') ->
  forall l, In l ls' -> exists o, In o ls /\ like bid l o.
Proof. exact attributes_lemma. Qed.
Print Assumptions C60_attributes.

(** C60: nodes are moved by at most one hop below the threshold per iteration, and places that were connected remain connected *)
Theorem C60_connections : forall dist th bid k ns ls ns' ls', network ns ls -> no_loops ls -> postprocess dist k th bid (ns, ls) = Ok (ns', ls') ->
  exists f, (forall n, In n (ids ns) -> hops dist th ns k n (f n)) /\ forall u v, walk ls u v -> walk ls' (f u) (f v).
Proof. exact connection_lemma. Qed.
Print Assumptions C60_connections.

(** C60: with enforce_bidirectional every link has a reverse link, so no node is a dead end *)
Theorem C60_bidirectional : forall dist th k ns ls ns' ls', network ns ls -> no_loops ls -> postprocess dist (S k) th true (ns, ls) = Ok (ns', ls') ->
  (forall l, In l ls' -> exists r, In r ls' /\ ol_from r = ol_to l /\ ol_to r = ol_from l) /\
  forall n, In n (ids ns') -> (exists l, In l ls' /\ ol_from l = n) /\ (exists l, In l ls' /\ ol_to l = n).
Proof. exact bidirectional_lemma. Qed.
Print Assumptions C60_bidirectional.

(** C60: with as many iterations as nodes no short link is left *)
Theorem C60_short : forall dist th bid k ns ls ns' ls', network ns ls -> no_loops ls -> bid = false \/ sym dist -> List.length ns <= k ->
  postprocess dist k th bid (ns, ls) = Ok (ns', ls') -> forall l, In l ls' -> ~ short dist th ns' l.
Proof. exact short_lemma. Qed.
Print Assumptions C60_short.

(** C60: five iterations may leave short links *)
Theorem C60_remain_refuted : exists th ns ls ns' ls', network ns ls /\ no_loops ls /\
  postprocess line_dist 5 th false (ns, ls) = Ok (ns', ls') /\ exists l, In l ls' /\ short line_dist th ns' l.
Proof. exact remain_refuted. Qed.
Print Assumptions C60_remain_refuted.

(** C60: a short link need not be removed, it may become longer *)
Theorem C60_removed_refuted : exists th ns ls l ns' ls' k, network ns ls /\ no_loops ls /\ In l ls /\ short line_dist th ns l /\
  postprocess line_dist 5 th false (ns, ls) = Ok (ns', ls') /\ In k ls' /\ ol_name k = ol_name l /\ ol_from k = ol_from l /\ ol_len k = Some 8%Q.
Proof. exact removed_refuted. Qed.
Print Assumptions C60_removed_refuted.

(** C60: a link from a node to itself makes the postprocessing fail, or leaves links without nodes *)
Theorem C60_loop_refuted : exists th ns ls, network ns ls /\ postprocess line_dist 5 th false (ns, ls) = Err KeyError /\
  exists ns' ls', postprocess line_dist 1 th false (ns, ls) = Ok (ns', ls') /\ ~ network ns' ls'.
Proof. exact loop_refuted. Qed.
Print Assumptions C60_loop_refuted.
