(** * mintyml/src/config.rs *)

From Verif Require Import Base.

(** config.rs:5-23 [SpecialTagConfig] *)
Record special_tags := mkSpecial {
  st_emphasis : option str;
  st_strong : option str;
  st_underline : option str;
  st_strike : option str;
  st_quote : option str;
  st_code : option str;
  st_code_block_container : option str;
}.

(** config.rs:49-74 [OutputConfig]; [c_metadata = Some b] is
    [Some(MetadataConfig { elements: b })] (config.rs:25-32). *)
Record config := mkConfig {
  c_indent : option str;
  c_xml : option bool;
  c_special : special_tags;
  c_complete_page : option bool;
  c_lang : option str;
  c_metadata : option bool;
  c_fail_fast : option bool;
}.

(** config.rs:77-80 [OutputConfig::new] *)
Definition special_default : special_tags := mkSpecial None None None None None None None.
(* config.rs:77-80 *)
Definition config_default : config :=
  mkConfig None None special_default None None None None.

(** output/mod.rs:163-165 [is_xml] *)
Definition is_xml (c : config) : bool := match c_xml c with Some b => b | None => false end.
