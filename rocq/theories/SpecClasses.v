(** Notions used in the statements about the classes of tables (C102). *)
From Verif Require Import Num Frames MatM NetM MeshM StackM Spec ClassesM.
Open Scope Q_scope.

(** the same columns, rows and attributes, whatever the class *)
Definition same_data (t t' : table) : Prop :=
  t_attrs t' = t_attrs t /\ t_mat t' = t_mat t /\ t_net t' = t_net t /\ t_mesh t' = t_mesh t.
(** the flag "skip_check" is not set *)
Definition unmarked (t : table) : Prop := ~ flag_set (t_attrs t).
(** the mat [m] as an object of class Mat *)
Definition mat_object (m : qmat) (t : table) : Prop := t_class t = CMat /\ t_attrs t = m_attrs (df_of m) /\ t_mat t = Some (df_of m) /\ t_net t = None /\ t_mesh t = None.
(** the table of a network, as an object of class [c] *)
Definition net_object (c : class) (n : net_df) (t : table) : Prop := t_class t = c /\ t_attrs t = n_attrs n /\ t_net t = Some n /\ t_mat t = None /\ t_mesh t = None.
(** the table of a mesh *)
Definition mesh_object (g : mesh_df) (t : table) : Prop := t_class t = CMesh /\ t_attrs t = g_attrs g /\ t_mesh t = Some g /\ t_mat t = None /\ t_net t = None.
