(** * StdDb: the parse table shipped with the tool (parse/funs/)

    The parsers whose python source is a single StandardArgTree.parse call were
    translated mechanically; dispatchers and hand-written loops by hand.  Lint
    records and log messages of the parse functions are not modelled. *)
From Verif Require Import Base Regex Lex Tree Parse CmdSpec StdSpecs.

(** StandardArgTree.parse with old-style arguments, argument_nodes.py 198-225,
    also StandardParser, 228-243 *)
Definition sat (n : nargs) (kw : list (str * parser)) (flags : list str) : parser :=
  PStd (legacy_cspec n flags) kw.
Definition sat_any : parser := sat (NStr $"*") nil nil.
(** PatternNode.parse, additional_nodes.py 143-163 *)
Definition pattern_parser : parser :=
  sat (NStr $"+") [($"PERMISSIONS", pos (NStr $"+") nil)] [$"EXCLUDE"].

(** python [p in s] for strings *)
Fixpoint infix (p s : str) : bool :=
  startswith p s || match s with nil => false | _ :: s' => infix p s' end.

Definition first_sem (toks : list token) : option token := nth_semantic toks 0.
Definition sem_upper (toks : list token) (n : nat) : option str :=
  option_map (fun t => upper (spelling t)) (nth_semantic toks n).
Definition sem_is (toks : list token) (n : nat) (w : str) : bool :=
  match sem_upper toks n with Some u => seqb u w | None => false end.
(** [tokens[0].get_location()] raises IndexError on an empty list *)
Definition need_tok (toks : list token) (p : parser) : parser :=
  match toks with nil => PRaise IndexErr | _ => p end.

(** parse_add_executable_imported, funs/add_executable.py 21-33 *)
Definition parse_add_executable_imported : parser :=
  sat (NStr $"+") nil [$"IMPORTED"; $"GLOBAL"].

(** parse_add_executable_alias, funs/add_executable.py 36-47 *)
Definition parse_add_executable_alias : parser :=
  sat (NInt 3) nil [$"ALIAS"].

(** parse_add_library_imported, funs/add_library.py 125-138 *)
Definition parse_add_library_imported : parser :=
  sat (NStr $"+") nil [$"SHARED"; $"STATIC"; $"MODULE"; $"OBJECT"; $"UNKOWN"; $"IMPORTED"; $"GLOBAL"].

(** parse_add_library_alias, funs/add_library.py 190-201 *)
Definition parse_add_library_alias : parser :=
  sat (NInt 3) nil [$"ALIAS"].

(** parse_add_library_interface, funs/add_library.py 204-215 *)
Definition parse_add_library_interface : parser :=
  sat (NStr $"+") nil [$"INTERFACE"; $"IMPORTED"; $"GLOBAL"].

(** parse_add_custom_command_events, funs/add_xxx.py 23-58 *)
Definition parse_add_custom_command_events : parser :=
  sat (NStr $"*") [($"BYPRODUCTS", pos (NStr $"*") nil);
     ($"COMMAND", PShell);
     ($"COMMENT", pos (NStr $"*") nil);
     ($"TARGET", pos (NInt 1) nil);
     ($"WORKING_DIRECTORY", pos (NInt 1) nil)] [$"APPEND"; $"VERBATIM"; $"USES_TERMINAL"; $"COMMAND_EXPAND_LISTS"; $"PRE_BUILD"; $"PRE_LINK"; $"POST_BUILD"].

(** parse_add_custom_command_standard, funs/add_xxx.py 61-107 *)
Definition parse_add_custom_command_standard : parser :=
  sat (NStr $"*") [($"BYPRODUCTS", pos (NStr $"*") nil);
     ($"COMMAND", PShell);
     ($"COMMENT", pos (NStr $"*") nil);
     ($"DEPENDS", pos (NStr $"*") nil);
     ($"DEPFILE", pos (NInt 1) nil);
     ($"JOB_POOL", pos (NInt 1) nil);
     ($"IMPLICIT_DEPENDS", PTuple (NStr $"+") 2 nil);
     ($"MAIN_DEPENDENCY", pos (NInt 1) nil);
     ($"OUTPUT", pos (NStr $"+") nil);
     ($"WORKING_DIRECTORY", pos (NInt 1) nil)] [$"APPEND"; $"VERBATIM"; $"USES_TERMINAL"; $"COMMAND_EXPAND_LISTS"].

(** parse_add_compile_options, funs/add_xxx.py 274-282 *)
Definition parse_add_compile_options : parser :=
  sat (NStr $"+") nil nil.

(** parse_add_definitions, funs/add_xxx.py 285-293 *)
Definition parse_add_definitions : parser :=
  sat (NStr $"+") nil nil.

(** parse_add_dependencies, funs/add_xxx.py 296-305 *)
Definition parse_add_dependencies : parser :=
  sat (NStr $"2+") nil nil.

(** parse_add_subdirectory, funs/add_xxx.py 308-318 *)
Definition parse_add_subdirectory : parser :=
  sat (NStr $"+") nil [$"EXCLUDE_FROM_ALL"].

(** parse_aux_source_directory, funs/add_xxx.py 321-331 *)
Definition parse_aux_source_directory : parser :=
  sat (NStr $"2") nil nil.

(** parse_build_name, funs/deprecated.py 10-18 *)
Definition dep_parse_build_name : parser :=
  sat (NInt 1) nil nil.

(** parse_exec_program, funs/deprecated.py 21-38 *)
Definition dep_parse_exec_program : parser :=
  sat (NInt 2) [($"ARGS", pos (NStr $"+") nil);
     ($"OUTPUT_VARIABLE", pos (NInt 1) nil);
     ($"RETURN_VALUE", pos (NInt 1) nil)] nil.

(** parse_install_targets, funs/deprecated.py 85-96 *)
Definition dep_parse_install_targets : parser :=
  sat (NStr $"2+") [($"RUNTIME_DIRECTORY", pos (NInt 1) nil)] nil.

(** parse_make_directory, funs/deprecated.py 99-107 *)
Definition dep_parse_make_directory : parser :=
  sat (NInt 1) nil nil.

(** parse_remove, funs/deprecated.py 110-118 *)
Definition dep_parse_remove : parser :=
  sat (NStr $"2+") nil nil.

(** parse_subdir_depends, funs/deprecated.py 121-129 *)
Definition dep_parse_subdir_depends : parser :=
  sat (NStr $"2+") nil nil.

(** parse_subdirs, funs/deprecated.py 132-145 *)
Definition dep_parse_subdirs : parser :=
  sat (NStr $"+") [($"EXCLUDE_FROM_ALL", pos (NStr $"+") nil)] [$"PREORDER"].

(** parse_use_mangled_mesa, funs/deprecated.py 148-156 *)
Definition dep_parse_use_mangled_mesa : parser :=
  sat (NInt 2) nil nil.

(** parse_utility_source, funs/deprecated.py 159-168 *)
Definition dep_parse_utility_source : parser :=
  sat (NStr $"3+") nil nil.

(** parse_variable_requires, funs/deprecated.py 171-181 *)
Definition dep_parse_variable_requires : parser :=
  sat (NStr $"3+") nil nil.

(** parse_write_file, funs/deprecated.py 184-192 *)
Definition dep_parse_write_file : parser :=
  sat (NStr $"2+") nil [$"APPEND"].

(** parse_external_project_add, funs/external_project.py 6-119 *)
Definition parse_external_project_add : parser :=
  sat (NInt 1) [($"PREFIX", pos (NInt 1) nil);
     ($"TMP_DIR", pos (NInt 1) nil);
     ($"STAMP_DIR", pos (NInt 1) nil);
     ($"LOG_DIR", pos (NInt 1) nil);
     ($"DOWNLOAD_DIR", pos (NInt 1) nil);
     ($"SOURCE_DIR", pos (NInt 1) nil);
     ($"BINARY_DIR", pos (NInt 1) nil);
     ($"INSTALL_DIR", pos (NInt 1) nil);
     ($"DOWNLOAD_COMMAND", PShell);
     ($"URL", pos (NStr $"+") nil);
     ($"URL_HASH", pos (NInt 1) nil);
     ($"URL_MD5", pos (NInt 1) nil);
     ($"DOWNLOAD_NAME", pos (NInt 1) nil);
     ($"DOWNLOAD_NO_EXTRACT", pos (NInt 1) nil);
     ($"DOWNLOAD_NO_PROGRESS", pos (NInt 1) nil);
     ($"TIMEOUT", pos (NInt 1) nil);
     ($"HTTP_USERNAME", pos (NInt 1) nil);
     ($"HTTP_PASSWORD", pos (NInt 1) nil);
     ($"HTTP_HEADER", pos (NStr $"+") nil);
     ($"TLS_VERIFY", pos (NInt 1) nil);
     ($"TLS_CAINFO", pos (NInt 1) nil);
     ($"NETRC", pos (NInt 1) [$"CMAKE_NETRC"; $"IGNORED"; $"OPTIONAL"; $"REQUIRED"]);
     ($"NETRC_FILE", pos (NInt 1) nil);
     ($"GIT_REPOSITORY", pos (NInt 1) nil);
     ($"GIT_TAG", pos (NInt 1) nil);
     ($"GIT_REMOTE_NAME", pos (NInt 1) nil);
     ($"GIT_SUBMODULES", pos (NStr $"+") nil);
     ($"GIT_SHALLOW", pos (NInt 1) nil);
     ($"GIT_PROGRESS", pos (NInt 1) nil);
     ($"GIT_CONFIG", pos (NStr $"+") nil);
     ($"SVN_REPOSITORY", pos (NInt 1) nil);
     ($"SVN_REVISION", pos (NInt 1) nil);
     ($"SVN_USERNAME", pos (NInt 1) nil);
     ($"SVN_PASSWORD", pos (NInt 1) nil);
     ($"SVN_TRUST_CERT", pos (NInt 1) nil);
     ($"HG_REPOSITORY", pos (NInt 1) nil);
     ($"HG_TAG", pos (NInt 1) nil);
     ($"CVS_REPOSITORY", pos (NInt 1) nil);
     ($"CVS_MODULE", pos (NInt 1) nil);
     ($"CVS_TAG", pos (NInt 1) nil);
     ($"UPDATE_COMMAND", PShell);
     ($"UPDATE_DISCONNECTED", pos (NInt 1) nil);
     ($"PATCH_COMMAND", PShell);
     ($"CONFIGURE_COMMAND", PShell);
     ($"CMAKE_COMMAND", pos (NInt 1) nil);
     ($"CMAKE_GENERATOR", pos (NInt 1) nil);
     ($"CMAKE_GENERATOR_PLATFORM", pos (NInt 1) nil);
     ($"CMAKE_GENERATOR_TOOLSET", pos (NInt 1) nil);
     ($"CMAKE_GENERATOR_INSTANCE", pos (NInt 1) nil);
     ($"CMAKE_ARGS", pos (NStr $"+") nil);
     ($"CMAKE_CACHE_ARGS", pos (NStr $"+") nil);
     ($"CMAKE_CACHE_DEFAULT_ARGS", pos (NStr $"+") nil);
     ($"SOURCE_SUBDIR", pos (NInt 1) nil);
     ($"BUILD_COMMAND", PShell);
     ($"BUILD_IN_SOURCE", pos (NInt 1) nil);
     ($"BUILD_ALWAYS", pos (NInt 1) nil);
     ($"BUILD_BYPRODUCTS", pos (NStr $"+") nil);
     ($"INSTALL_COMMAND", PShell);
     ($"TEST_COMMAND", PShell);
     ($"TEST_BEFORE_INSTALL", pos (NInt 1) nil);
     ($"TEST_AFTER_INSTALL", pos (NInt 1) nil);
     ($"TEST_EXCLUDE_FROM_MAIN", pos (NInt 1) nil);
     ($"LOG_DOWNLOAD", pos (NInt 1) nil);
     ($"LOG_UPDATE", pos (NInt 1) nil);
     ($"LOG_PATCH", pos (NInt 1) nil);
     ($"LOG_CONFIGURE", pos (NInt 1) nil);
     ($"LOG_BUILD", pos (NInt 1) nil);
     ($"LOG_INSTALL", pos (NInt 1) nil);
     ($"LOG_TEST", pos (NInt 1) nil);
     ($"LOG_MERGED_STDOUTERR", pos (NInt 1) nil);
     ($"LOG_OUTPUT_ON_FAILURE", pos (NInt 1) nil);
     ($"USES_TERMINAL_DOWNLOAD", pos (NInt 1) nil);
     ($"USES_TERMINAL_UPDATE", pos (NInt 1) nil);
     ($"USES_TERMINAL_CONFIGURE", pos (NInt 1) nil);
     ($"USES_TERMINAL_BUILD", pos (NInt 1) nil);
     ($"USES_TERMINAL_INSTALL", pos (NInt 1) nil);
     ($"USES_TERMINAL_TEST", pos (NInt 1) nil);
     ($"DEPENDS", pos (NStr $"+") nil);
     ($"EXCLUDE_FROM_ALL", pos (NInt 1) nil);
     ($"STEP_TARGETS", pos (NStr $"+") nil);
     ($"INDEPENDENT_STEP_TARGETS", pos (NStr $"+") nil);
     ($"LIST_SEPARATOR", pos (NInt 1) nil);
     ($"COMMAND", PShell)] nil.

(** parse_external_project_add_step, funs/external_project.py 122-147 *)
Definition parse_external_project_add_step : parser :=
  sat (NInt 2) [($"COMMAND", PShell);
     ($"COMMENT", pos (NStr $"+") nil);
     ($"DEPENDEES", pos (NStr $"+") nil);
     ($"DEPENDERS", pos (NStr $"+") nil);
     ($"DEPENDS", pos (NStr $"+") nil);
     ($"BYPRODUCTS", pos (NStr $"+") nil);
     ($"ALWAYS", pos (NInt 1) nil);
     ($"EXCLUDE_FROM_MAIN", pos (NInt 1) nil);
     ($"WORKING_DIRECTORY", pos (NInt 1) nil);
     ($"LOG", pos (NInt 1) nil);
     ($"USES_TERMINAL", pos (NInt 1) nil)] nil.

(** parse_fetchcontent_declare, funs/fetch_content.py 6-62 *)
Definition parse_fetchcontent_declare : parser :=
  sat (NInt 1) [($"DOWNLOAD_COMMAND", PShell);
     ($"URL", pos (NStr $"+") nil);
     ($"URL_HASH", pos (NInt 1) nil);
     ($"URL_MD5", pos (NInt 1) nil);
     ($"DOWNLOAD_NAME", pos (NInt 1) nil);
     ($"DOWNLOAD_NO_EXTRACT", pos (NInt 1) nil);
     ($"DOWNLOAD_NO_PROGRESS", pos (NInt 1) nil);
     ($"TIMEOUT", pos (NInt 1) nil);
     ($"HTTP_USERNAME", pos (NInt 1) nil);
     ($"HTTP_PASSWORD", pos (NInt 1) nil);
     ($"HTTP_HEADER", pos (NStr $"+") nil);
     ($"TLS_VERIFY", pos (NInt 1) nil);
     ($"TLS_CAINFO", pos (NInt 1) nil);
     ($"NETRC", pos (NInt 1) [$"CMAKE_NETRC"; $"IGNORED"; $"OPTIONAL"; $"REQUIRED"]);
     ($"NETRC_FILE", pos (NInt 1) nil);
     ($"GIT_REPOSITORY", pos (NInt 1) nil);
     ($"GIT_TAG", pos (NInt 1) nil);
     ($"GIT_REMOTE_NAME", pos (NInt 1) nil);
     ($"GIT_SUBMODULES", pos (NStr $"+") nil);
     ($"GIT_SHALLOW", pos (NInt 1) nil);
     ($"GIT_PROGRESS", pos (NInt 1) nil);
     ($"GIT_CONFIG", pos (NStr $"+") nil);
     ($"SVN_REPOSITORY", pos (NInt 1) nil);
     ($"SVN_REVISION", pos (NInt 1) nil);
     ($"SVN_USERNAME", pos (NInt 1) nil);
     ($"SVN_PASSWORD", pos (NInt 1) nil);
     ($"SVN_TRUST_CERT", pos (NInt 1) nil);
     ($"HG_REPOSITORY", pos (NInt 1) nil);
     ($"HG_TAG", pos (NInt 1) nil);
     ($"CVS_REPOSITORY", pos (NInt 1) nil);
     ($"CVS_MODULE", pos (NInt 1) nil);
     ($"CVS_TAG", pos (NInt 1) nil);
     ($"UPDATE_COMMAND", PShell);
     ($"UPDATE_DISCONNECTED", pos (NInt 1) nil);
     ($"PATCH_COMMAND", PShell)] nil.

(** parse_fetchcontent_populate, funs/fetch_content.py 65-132 *)
Definition parse_fetchcontent_populate : parser :=
  sat (NInt 1) [($"SUBBUILD_DIR", pos (NInt 1) nil);
     ($"SOURCE_DIR", pos (NInt 1) nil);
     ($"BINARY_DIR", pos (NInt 1) nil);
     ($"DOWNLOAD_COMMAND", PShell);
     ($"URL", pos (NStr $"+") nil);
     ($"URL_HASH", pos (NInt 1) nil);
     ($"URL_MD5", pos (NInt 1) nil);
     ($"DOWNLOAD_NAME", pos (NInt 1) nil);
     ($"DOWNLOAD_NO_EXTRACT", pos (NInt 1) nil);
     ($"DOWNLOAD_NO_PROGRESS", pos (NInt 1) nil);
     ($"TIMEOUT", pos (NInt 1) nil);
     ($"HTTP_USERNAME", pos (NInt 1) nil);
     ($"HTTP_PASSWORD", pos (NInt 1) nil);
     ($"HTTP_HEADER", pos (NStr $"+") nil);
     ($"TLS_VERIFY", pos (NInt 1) nil);
     ($"TLS_CAINFO", pos (NInt 1) nil);
     ($"NETRC", pos (NInt 1) [$"CMAKE_NETRC"; $"IGNORED"; $"OPTIONAL"; $"REQUIRED"]);
     ($"NETRC_FILE", pos (NInt 1) nil);
     ($"GIT_REPOSITORY", pos (NInt 1) nil);
     ($"GIT_TAG", pos (NInt 1) nil);
     ($"GIT_REMOTE_NAME", pos (NInt 1) nil);
     ($"GIT_SUBMODULES", pos (NStr $"+") nil);
     ($"GIT_SHALLOW", pos (NInt 1) nil);
     ($"GIT_PROGRESS", pos (NInt 1) nil);
     ($"GIT_CONFIG", pos (NStr $"+") nil);
     ($"SVN_REPOSITORY", pos (NInt 1) nil);
     ($"SVN_REVISION", pos (NInt 1) nil);
     ($"SVN_USERNAME", pos (NInt 1) nil);
     ($"SVN_PASSWORD", pos (NInt 1) nil);
     ($"SVN_TRUST_CERT", pos (NInt 1) nil);
     ($"HG_REPOSITORY", pos (NInt 1) nil);
     ($"HG_TAG", pos (NInt 1) nil);
     ($"CVS_REPOSITORY", pos (NInt 1) nil);
     ($"CVS_MODULE", pos (NInt 1) nil);
     ($"CVS_TAG", pos (NInt 1) nil);
     ($"UPDATE_COMMAND", PShell);
     ($"UPDATE_DISCONNECTED", pos (NInt 1) nil);
     ($"PATCH_COMMAND", PShell)] [$"QUIET"].

(** parse_fetchcontent_getproperties, funs/fetch_content.py 135-154 *)
Definition parse_fetchcontent_getproperties : parser :=
  sat (NInt 1) [($"SOURCE_DIR", pos (NInt 1) nil);
     ($"BINARY_DIR", pos (NInt 1) nil);
     ($"POPULATED", pos (NInt 1) nil)] nil.

(** parse_foreach_range, funs/foreach.py 55-70 *)
Definition parse_foreach_range : parser :=
  sat (NInt 1) [($"RANGE", pos (NInt 3) nil)] nil.

(** parse_file_read, funs/file.py 18-39 *)
Definition parse_file_read : parser :=
  sat (NStr $"*") [($"OFFSET", pos (NInt 1) nil);
     ($"LIMIT", pos (NInt 1) nil)] [$"READ"; $"HEX"].

(** parse_file_strings, funs/file.py 42-71 *)
Definition parse_file_strings : parser :=
  sat (NStr $"*") [($"LENGTH_MAXIMUM", pos (NInt 1) nil);
     ($"LENGTH_MINIMUM", pos (NInt 1) nil);
     ($"LIMIT_COUNT", pos (NInt 1) nil);
     ($"LIMIT_INPUT", pos (NInt 1) nil);
     ($"LIMIT_OUTPUT", pos (NInt 1) nil);
     ($"REGEX", pos (NInt 1) nil);
     ($"ENCODING", pos (NInt 1) [$"UTF-8"; $"UTF-16LE"; $"UTF-16BE"; $"UTF-32LE"; $"UTF-32BE"])] [$"STRINGS"; $"NEWLINE_CONSUME"; $"NO_HEX_CONVERSION"].

(** parse_file_hash, funs/file.py 88-102 *)
Definition parse_file_hash : parser :=
  sat (NInt 3) nil [$"MD5"; $"SHA1"; $"SHA224"; $"SHA256"; $"SHA384"; $"SHA512"; $"SHA3_224"; $"SHA3_256"; $"SHA3_384"; $"SHA3_512"].

(** parse_file_timestamp, funs/file.py 105-119 *)
Definition parse_file_timestamp : parser :=
  sat (NStr $"+") nil [$"TIMESTAMP"; $"UTC"].

(** parse_file_generate_output, funs/file.py 143-164 *)
Definition parse_file_generate_output : parser :=
  sat (NInt 1) [($"OUTPUT", pos (NInt 1) nil);
     ($"INPUT", pos (NInt 1) nil);
     ($"CONTENT", pos (NStr $"+") nil);
     ($"CONDITION", PCond)] [$"GENERATE"].

(** parse_file_glob, funs/file.py 167-192 *)
Definition parse_file_glob : parser :=
  sat (NStr $"+") [($"LIST_DIRECTORIES", pos (NInt 1) nil);
     ($"RELATIVE", pos (NInt 1) nil)] [$"GLOB"; $"GLOB_RECURSE"; $"CONFIGURE_DEPENDS"; $"FOLLOW_SYMLINKS"].

(** parse_file_copy, funs/file.py 195-233 *)
Definition parse_file_copy : parser :=
  sat (NStr $"*") [($"COPY", pos (NStr $"*") nil);
     ($"DESTINATION", pos (NInt 1) nil);
     ($"FILE_PERMISSIONS", pos (NStr $"+") [$"OWNER_READ"; $"OWNER_WRITE"; $"OWNER_EXECUTE"; $"GROUP_READ"; $"GROUP_WRITE"; $"GROUP_EXECUTE"; $"WORLD_READ"; $"WORLD_WRITE"; $"WORLD_EXECUTE"; $"SETUID"; $"SETGID"]);
     ($"DIRECTORY_PERMISSIONS", pos (NStr $"+") nil);
     ($"PATTERN", pattern_parser);
     ($"REGEX", pattern_parser)] [$"INSTALL"; $"NO_SOURCE_PERMISSIONS"; $"USE_SOURCE_PERMISSIONS"; $"FILES_MATCHING"].

(** parse_file_create_link, funs/file.py 236-256 *)
Definition parse_file_create_link : parser :=
  sat (NStr $"+") [($"RESULT", pos (NInt 1) nil)] [$"COPY_ON_ERROR"; $"SYMBOLIC"].

(** parse_file_xfer, funs/file.py 259-293 *)
Definition parse_file_xfer : parser :=
  sat (NInt 3) [($"INACTIVITY_TIMEOUT", pos (NInt 1) nil);
     ($"LOG", pos (NInt 1) nil);
     ($"STATUS", pos (NInt 1) nil);
     ($"TIMEOUT", pos (NInt 1) nil);
     ($"USERPWD", pos (NInt 1) nil);
     ($"HTTPHEADER", pos (NInt 1) nil);
     ($"NETRC", pos (NInt 1) [$"CMAKE_NETRC"; $"IGNORED"; $"OPTIONAL"; $"REQUIRED"]);
     ($"NETRC_FILE", pos (NInt 1) nil);
     ($"EXPECTED_HASH", pos (NInt 1) nil);
     ($"EXPECTED_MD5", pos (NInt 1) nil);
     ($"TLS_VERIFY", pos (NInt 1) nil);
     ($"TLS_CAINFO", pos (NInt 1) nil)] [$"DOWNLOAD"; $"UPLOAD"; $"SHOW_PROGRESS"].

(** parse_file_lock, funs/file.py 296-321 *)
Definition parse_file_lock : parser :=
  sat (NStr $"+") [($"GUARD", pos (NInt 1) [$"FUNCTION"; $"FILE"; $"PROCESS"]);
     ($"RESULT_VARIABLE", pos (NInt 1) nil);
     ($"TIMEOUT", pos (NInt 1) nil)] [$"LOCK"; $"DIRECTORY"; $"RELEASE"].

(** parse_install_targets_sub, funs/install.py 18-40 *)
Definition parse_install_targets_sub : parser :=
  sat (NStr $"*") [($"DESTINATION", pos (NInt 1) nil);
     ($"PERMISSIONS", pos (NStr $"+") nil);
     ($"CONFIGURATIONS", pos (NStr $"+") nil);
     ($"COMPONENT", pos (NInt 1) nil);
     ($"NAMELINK_COMPONENT", pos (NInt 1) nil)] [$"OPTIONAL"; $"EXCLUDE_FROM_ALL"; $"NAMELINK_ONLY"; $"NAMELINK_SKIP"].

(** parse_install_files, funs/install.py 155-184 *)
Definition parse_install_files : parser :=
  sat (NStr $"*") [($"FILES", pos (NStr $"+") nil);
     ($"PROGRAMS", pos (NStr $"+") nil);
     ($"TYPE", pos (NInt 1) nil);
     ($"DESTINATION", pos (NInt 1) nil);
     ($"PERMISSIONS", pos (NStr $"+") nil);
     ($"CONFIGURATIONS", pos (NStr $"+") nil);
     ($"COMPONENT", pos (NInt 1) nil);
     ($"RENAME", pos (NInt 1) nil)] [$"OPTIONAL"; $"EXCLUDE_FROM_ALL"].

(** parse_install_directory, funs/install.py 187-225 *)
Definition parse_install_directory : parser :=
  sat (NStr $"*") [($"DIRECTORY", pos (NStr $"+") nil);
     ($"TYPE", pos (NInt 1) nil);
     ($"DESTINATION", pos (NInt 1) nil);
     ($"FILE_PERMISSIONS", pos (NStr $"+") nil);
     ($"DIRECTORY_PERMISSIONS", pos (NStr $"+") nil);
     ($"CONFIGURATIONS", pos (NStr $"+") nil);
     ($"COMPONENT", pos (NInt 1) nil);
     ($"RENAME", pos (NInt 1) nil);
     ($"PATTERN", pattern_parser);
     ($"REGEX", pattern_parser)] [$"USER_SOURCE_PERMISSIONS"; $"OPTIONAL"; $"MESSAGE_NEVER"; $"FILES_MATCHING"].

(** parse_install_script, funs/install.py 228-248 *)
Definition parse_install_script : parser :=
  sat (NStr $"*") [($"SCRIPT", pos (NInt 1) nil);
     ($"CODE", pos (NInt 1) nil);
     ($"COMPONENT", pos (NInt 1) nil)] [$"EXCLUDE_FROM_ALL"].

(** parse_install_export, funs/install.py 251-280 *)
Definition parse_install_export : parser :=
  sat (NStr $"*") [($"EXPORT", pos (NInt 1) nil);
     ($"DESTINATION", pos (NInt 1) nil);
     ($"NAMESPACE", pos (NInt 1) nil);
     ($"FILE", pos (NInt 1) nil);
     ($"PERMISSIONS", pos (NStr $"+") nil);
     ($"CONFIGURATIONS", pos (NStr $"+") nil);
     ($"COMPONENT", pos (NInt 1) nil)] [$"EXCLUDE_FROM_ALL"].

(** parse_create_test_sourcelist, funs/miscellaneous.py 104-121 *)
Definition parse_create_test_sourcelist : parser :=
  sat (NStr $"3+") [($"EXTRA_INCLUDE", pos (NInt 1) nil);
     ($"FUNCTION", pos (NInt 1) nil)] nil.

(** parse_export_library_dependencies, funs/miscellaneous.py 124-133 *)
Definition parse_export_library_dependencies : parser :=
  sat (NStr $"1+") nil [$"APPEND"].

(** parse_fltk_wrap_ui, funs/miscellaneous.py 136-146 *)
Definition parse_fltk_wrap_ui : parser :=
  sat (NStr $"2+") nil nil.

(** parse_get_cmake_property, funs/miscellaneous.py 149-157 *)
Definition parse_get_cmake_property : parser :=
  sat (NInt 2) nil nil.

(** parse_get_source_file_property, funs/miscellaneous.py 189-197 *)
Definition parse_get_source_file_property : parser :=
  sat (NInt 3) nil nil.

(** parse_get_target_property, funs/miscellaneous.py 200-208 *)
Definition parse_get_target_property : parser :=
  sat (NInt 3) nil nil.

(** parse_get_test_property, funs/miscellaneous.py 211-219 *)
Definition parse_get_test_property : parser :=
  sat (NInt 3) nil nil.

(** parse_include_external_msproject, funs/miscellaneous.py 222-239 *)
Definition parse_include_external_msproject : parser :=
  sat (NStr $"2+") [($"TYPE", pos (NInt 1) nil);
     ($"GUID", pos (NInt 1) nil);
     ($"PLATFORM", pos (NInt 1) nil)] nil.

(** parse_include_guard, funs/miscellaneous.py 242-250 *)
Definition parse_include_guard : parser :=
  sat (NStr $"*") nil nil.

(** parse_include_regular_expression, funs/miscellaneous.py 253-261 *)
Definition parse_include_regular_expression : parser :=
  sat (NStr $"*") nil nil.

(** parse_link_directories, funs/miscellaneous.py 264-273 *)
Definition parse_link_directories : parser :=
  sat (NStr $"+") nil [$"AFTER"; $"BEFORE"].

(** parse_link_libraries, funs/miscellaneous.py 276-286 *)
Definition parse_link_libraries : parser :=
  sat (NStr $"+") nil [$"DEBUG"; $"OPTIMIZED"; $"GENERAL"].

(** parse_load_cache, funs/miscellaneous.py 289-304 *)
Definition parse_load_cache : parser :=
  sat (NInt 1) [($"READ_WITH_PREFIX", pos (NStr $"2+") nil);
     ($"EXCLUDE", pos (NStr $"+") nil);
     ($"INCLUDE_INTERNALS", pos (NStr $"+") nil)] nil.

(** parse_load_command, funs/miscellaneous.py 307-316 *)
Definition parse_load_command : parser :=
  sat (NStr $"2+") nil [$"COMMAND_NAME"].

(** parse_math, funs/miscellaneous.py 319-330 *)
Definition parse_math : parser :=
  sat (NStr $"3") [($"OUTPUT_FORMAT", pos (NInt 1) nil)] nil.

(** parse_option, funs/miscellaneous.py 333-341 *)
Definition parse_option : parser :=
  sat (NStr $"2+") nil nil.

(** parse_output_required_files, funs/miscellaneous.py 344-352 *)
Definition parse_output_required_files : parser :=
  sat (NInt 2) nil nil.

(** parse_qt_wrap_cpp, funs/miscellaneous.py 355-363 *)
Definition parse_qt_wrap_cpp : parser :=
  sat (NStr $"3+") nil nil.

(** parse_qt_wrap_ui, funs/miscellaneous.py 366-375 *)
Definition parse_qt_wrap_ui : parser :=
  sat (NStr $"4+") nil nil.

(** parse_remove_definitions, funs/miscellaneous.py 378-386 *)
Definition parse_remove_definitions : parser :=
  sat (NStr $"+") nil nil.

(** parse_separate_arguments, funs/miscellaneous.py 389-398 *)
Definition parse_separate_arguments : parser :=
  sat (NInt 3) nil [$"UNIX_COMMAND"; $"WINDOWS_COMMAND"; $"NATIVE_COMMAND"].

(** parse_set_source_files_properties, funs/miscellaneous.py 401-414 *)
Definition parse_set_source_files_properties : parser :=
  sat (NStr $"+") [($"PROPERTIES", PTuple (NStr $"+") 2 nil)] nil.

(** parse_site_name, funs/miscellaneous.py 417-425 *)
Definition parse_site_name : parser :=
  sat (NInt 1) nil nil.

(** parse_ctest_build, funs/random.py 10-38 *)
Definition parse_ctest_build : parser :=
  sat (NStr $"+") [($"BUILD", pos (NInt 1) nil);
     ($"CONFIGURATION", pos (NInt 1) nil);
     ($"FLAGS", pos (NInt 1) nil);
     ($"PROJECT_NAME", pos (NInt 1) nil);
     ($"TARGET", pos (NInt 1) nil);
     ($"NUMBER_ERRORS", pos (NInt 1) nil);
     ($"NUMBER_WARNINGS", pos (NInt 1) nil);
     ($"RETURN_VALUE", pos (NInt 1) nil);
     ($"CAPTURE_CMAKE_ERROR", pos (NInt 1) nil)] [$"APPEND"].

(** parse_ctest_configure, funs/random.py 41-59 *)
Definition parse_ctest_configure : parser :=
  sat (NStr $"+") [($"BUILD", pos (NInt 1) nil);
     ($"SOURCE", pos (NInt 1) nil);
     ($"OPTIONS", pos (NInt 1) nil);
     ($"RETURN_VALUE", pos (NInt 1) nil);
     ($"CAPTURE_CMAKE_ERROR", pos (NInt 1) nil)] [$"APPEND"; $"QUIET"].

(** parse_ctest_coverage, funs/random.py 62-82 *)
Definition parse_ctest_coverage : parser :=
  sat (NStr $"+") [($"BUILD", pos (NInt 1) nil);
     ($"LABELS", pos (NStr $"+") nil);
     ($"RETURN_VALUE", pos (NInt 1) nil);
     ($"CAPTURE_CMAKE_ERROR", pos (NInt 1) nil)] [$"APPEND"; $"QUIET"].

(** parse_ctest_empty_binary_directory, funs/random.py 85-93 *)
Definition parse_ctest_empty_binary_directory : parser :=
  sat (NInt 1) nil nil.

(** parse_ctest_memcheck, funs/random.py 96-142 *)
Definition parse_ctest_memcheck : parser :=
  sat (NInt 0) [($"BUILD", pos (NInt 1) nil);
     ($"START", pos (NInt 1) nil);
     ($"END", pos (NInt 1) nil);
     ($"STRIDE", pos (NInt 1) nil);
     ($"EXCLUDE", pos (NInt 1) nil);
     ($"INCLUDE", pos (NInt 1) nil);
     ($"EXCLUDE_LABEL", pos (NInt 1) nil);
     ($"INCLUDE_LABEL", pos (NInt 1) nil);
     ($"EXCLUDE_FIXTURE", pos (NInt 1) nil);
     ($"EXCLUDE_FIXTURE_SETUP", pos (NInt 1) nil);
     ($"EXCLUDE_FIXTURE_CLEANUP", pos (NInt 1) nil);
     ($"PARALLEL_LEVEL", pos (NInt 1) nil);
     ($"TEST_LOAD", pos (NInt 1) nil);
     ($"SCHEDULE_RANDOM", pos (NInt 1) [$"ON"; $"OFF"]);
     ($"STOP_TIME", pos (NInt 1) nil);
     ($"RETURN_VALUE", pos (NInt 1) nil);
     ($"DEFECT_COUNT", pos (NInt 1) nil)] [$"APPEND"; $"QUIET"].

(** parse_ctest_read_custom_files, funs/random.py 145-153 *)
Definition parse_ctest_read_custom_files : parser :=
  sat (NStr $"+") nil nil.

(** parse_ctest_run_script, funs/random.py 156-167 *)
Definition parse_ctest_run_script : parser :=
  sat (NStr $"+") [($"RETURN_VALUE", pos (NInt 1) nil)] [$"NEW_PROCESS"].

(** parse_ctest_start, funs/random.py 185-198 *)
Definition parse_ctest_start : parser :=
  sat (NStr $"+") [($"GROUP", pos (NInt 1) nil)] [$"QUIET"; $"APPEND"].

(** parse_ctest_submit, funs/random.py 201-230 *)
Definition parse_ctest_submit : parser :=
  sat (NStr $"+") [($"PARTS", pos (NStr $"+") nil);
     ($"FILES", pos (NStr $"+") nil);
     ($"SUBMIT_URL", pos (NInt 1) nil);
     ($"BUILD_ID", pos (NInt 1) nil);
     ($"HTTPHEADER", pos (NInt 1) nil);
     ($"RETRY_COUNT", pos (NInt 1) nil);
     ($"RETRY_DELAY", pos (NInt 1) nil);
     ($"RETURN_VALUE", pos (NInt 1) nil);
     ($"CAPTURE_CMAKE_ERROR", pos (NInt 1) nil)] [$"QUIET"].

(** parse_ctest_test, funs/random.py 233-281 *)
Definition parse_ctest_test : parser :=
  sat (NStr $"+") [($"BUILD", pos (NInt 1) nil);
     ($"START", pos (NInt 1) nil);
     ($"END", pos (NInt 1) nil);
     ($"STRIDE", pos (NInt 1) nil);
     ($"EXCLUDE", pos (NInt 1) nil);
     ($"INCLUDE", pos (NInt 1) nil);
     ($"EXCLUDE_LABEL", pos (NInt 1) nil);
     ($"INCLUDE_LABEL", pos (NInt 1) nil);
     ($"EXCLUDE_FIXTURE", pos (NInt 1) nil);
     ($"EXCLUDE_FIXTURE_SETUP", pos (NInt 1) nil);
     ($"EXCLUDE_FIXTURE_CLEANUP", pos (NInt 1) nil);
     ($"PARALLEL_LEVEL", pos (NInt 1) nil);
     ($"RESOURCE_SPEC_FILE", pos (NInt 1) nil);
     ($"TEST_LOAD", pos (NInt 1) nil);
     ($"SCHEDULE_RANDOM", pos (NInt 1) [$"ON"; $"OFF"]);
     ($"STOP_TIME", pos (NInt 1) nil);
     ($"RETURN_VALUE", pos (NInt 1) nil);
     ($"CAPTURE_CMAKE_ERROR", pos (NInt 1) nil)] [$"APPEND"; $"QUIET"].

(** parse_ctest_update, funs/random.py 284-301 *)
Definition parse_ctest_update : parser :=
  sat (NStr $"+") [($"SOURCE", pos (NInt 1) nil);
     ($"RETURN_VALUE", pos (NInt 1) nil);
     ($"CAPTURE_CMAKE_ERROR", pos (NInt 1) nil)] [$"QUIET"].

(** parse_ctest_upload, funs/random.py 304-317 *)
Definition parse_ctest_upload : parser :=
  sat (NStr $"+") [($"FILES", pos (NStr $"+") nil);
     ($"CAPTURE_CMAKE_ERROR", pos (NInt 1) nil)] [$"QUIET"].

(** parse_target_compile_definitions, funs/random.py 320-335 *)
Definition parse_target_compile_definitions : parser :=
  sat (NInt 1) [($"INTERFACE", pos (NStr $"+") nil);
     ($"PUBLIC", pos (NStr $"+") nil);
     ($"PRIVATE", pos (NStr $"+") nil)] nil.

(** parse_target_compile_features, funs/random.py 338-351 *)
Definition parse_target_compile_features : parser :=
  sat (NInt 1) [($"INTERFACE", pos (NStr $"+") nil);
     ($"PUBLIC", pos (NStr $"+") nil);
     ($"PRIVATE", pos (NStr $"+") nil)] nil.

(** parse_target_sources, funs/random.py 354-369 *)
Definition parse_target_sources : parser :=
  sat (NInt 1) [($"INTERFACE", pos (NStr $"+") nil);
     ($"PUBLIC", pos (NStr $"+") nil);
     ($"PRIVATE", pos (NStr $"+") nil)] nil.

(** parse_unset, funs/random.py 372-382 *)
Definition parse_unset : parser :=
  sat (NStr $"+") nil [$"CACHE"; $"PARENT_SCOPE"].

(** parse_variable_watch, funs/random.py 385-393 *)
Definition parse_variable_watch : parser :=
  sat (NStr $"+") nil nil.

(** parse_add_compile_definitions, funs/random.py 396-404 *)
Definition parse_add_compile_definitions : parser :=
  sat (NStr $"+") nil nil.

(** parse_set_target_properties, funs/set_target_properties.py 5-20 *)
Definition parse_set_target_properties : parser :=
  sat (NStr $"+") [($"PROPERTIES", PTuple (NStr $"+") 2 nil)] nil.

(** ** Hand-written parsers *)
Definition psp (n : nargs) (flags : list str) : pspec := PSpec n false nil flags false None.
Definition keep_sort (t : token) : bool := tag_in t [$"sort"; $"sortable"].
Definition keep_none (_ : token) : bool := false.

(** parse_set, funs/set.py 26-129.  The CACHE branch reads [tokens[0]] when it
    records a lint message for missing arguments (IndexError at end of input).
    [vt]: config.parse.vartags_.  The variable name is the first argument of the
    first positional group. *)
Definition set_kw : list (str * parser) := [($"CACHE", pos (NStr $"2+") [$"FORCE"])].
Definition set_cache_chk (sub : pnode) (r : list token) : option err :=
  match r with
  | nil => if (List.length (semantics (flat sub)) <? 3)%nat then Some IndexErr else None
  | _ => None
  end.
Fixpoint set_varname (acc : list pnode) : option token :=
  match acc with
  | nil => None
  | N (KPargGroup _ _ _) cs :: _ => hd_error (semantics (flats cs))
  | _ :: acc' => set_varname acc'
  end.
Definition set_tags (vt : list ((str -> bool) * list str)) (acc : list pnode) : list str :=
  match set_varname acc with
  | Some t => flat_map (fun mt : (str -> bool) * list str => if fst mt (spelling t) then snd mt else nil) vt
  | None => nil
  end.
Definition set_step (vt : list ((str -> bool) * list str)) (acc : list pnode) (toks : list token) : gaction :=
  let dflt := GPos (psp (NStr $"+") nil) [[$"CACHE"; $"PARENT_SCOPE"]] true (set_tags vt acc) in
  match toks with
  | t :: _ =>
      if kwarg_in t [$"CACHE"]
      then GKw $"CACHE" (pos (NStr $"2+") [$"FORCE"]) [[$"CACHE"; $"PARENT_SCOPE"]] set_cache_chk
      else if kwarg_in t [$"PARENT_SCOPE"]
      then GPos (psp (NStr $"+") [$"PARENT_SCOPE"]) [[$"CACHE"]] true nil
      else dflt
  | nil => dflt
  end.
Definition parse_set (vt : list ((str -> bool) * list str)) : parser :=
  PSeq [SWs; SPos (psp (NInt 1) [$"PARENT_SCOPE"]) [[$"CACHE"]] true]
       (Some (GSpec keep_sort (set_step vt))).

(** parse_empty, funs/break.py 16-57 *)
Definition parse_empty : parser :=
  PSeq nil (Some (GSpec keep_none (fun _ _ => GPos (psp (NStr $"+") nil) nil false nil))).

(** parse_foreach_standard, funs/foreach.py 24-52 *)
Definition parse_foreach_standard : parser :=
  PSeq [SWs; SPos (psp (NInt 1) nil) nil true; SPos (psp (NStr $"+") nil) nil true] None.
(** parse_foreach_in, funs/foreach.py 73-134 *)
Definition foreach_in_step (_ : list pnode) (toks : list token) : gaction :=
  let dflt := GPos (psp (NStr $"+") nil) [[$"LISTS"; $"ITEMS"]] false nil in
  match toks with
  | t :: _ =>
      if kwarg_in t [$"LISTS"] then GKw $"LISTS" posplus [[$"LISTS"; $"ITEMS"]] no_check
      else if kwarg_in t [$"ITEMS"] then GKw $"ITEMS" posplus [[$"LISTS"; $"ITEMS"]] no_check
      else dflt
  | nil => dflt
  end.
Definition parse_foreach_in : parser :=
  PSeq [SWs; SPos (psp (NInt 2) [$"IN"]) nil true] (Some (GSpec keep_sort foreach_in_step)).
(** parse_foreach, funs/foreach.py 137-171 *)
Definition parse_foreach : parser := PDisp (fun toks =>
  match nth_semantic toks 1 with
  | None => need_tok toks sat_any
  | Some _ => if sem_is toks 1 $"RANGE" then parse_foreach_range
              else if sem_is toks 1 $"IN" then parse_foreach_in
              else parse_foreach_standard
  end).

(** parse_add_library_object, funs/add_library.py 141-187 *)
Definition parse_add_library_object : parser :=
  PSeq [SWs; SPos (psp (NInt 2) [$"OBJECT"]) nil true]
       (Some (GSpec keep_sort (fun _ _ => GPos (psp (NStr $"+") nil) nil false nil))).
(** parse_add_library, funs/add_library.py 218-269; [third_token.spelling] is an
    AttributeError when there is no third token *)
Definition has_deref (t : token) : bool := infix $"${" (spelling t).
Definition parse_add_library : parser := PDisp (fun toks =>
  match nth_semantic toks 1 with
  | None => need_tok toks sat_any
  | Some t2 =>
      if sem_is toks 1 $"OBJECT" then parse_add_library_object
      else if sem_is toks 1 $"ALIAS" then parse_add_library_alias
      else if sem_is toks 1 $"INTERFACE" then parse_add_library_interface
      else if sem_is toks 1 $"IMPORTED" then parse_add_library_imported
      else if sem_is toks 2 $"IMPORTED" then parse_add_library_imported
      else if has_deref t2 then PAddLib false
      else match nth_semantic toks 2 with
           | None => PRaise AttrErr
           | Some t3 => PAddLib (negb (has_deref t3))
           end
  end).
(** parse_add_executable, funs/add_executable.py 145-187 *)
Definition parse_add_executable : parser := PDisp (fun toks =>
  match nth_semantic toks 1 with
  | None => need_tok toks sat_any
  | Some t2 =>
      if sem_is toks 1 $"ALIAS" then parse_add_executable_alias
      else if sem_is toks 1 $"IMPORTED" then parse_add_executable_imported
      else PAddExe (negb (has_deref t2))
  end).

(** parse_add_custom_command, funs/add_xxx.py 110-141 *)
Definition parse_add_custom_command : parser := PDisp (fun toks =>
  match first_sem toks with
  | None => sat_any
  | Some t =>
      if is_tt RIGHT_PAREN t then sat_any
      else if is_tt DEREF t then parse_add_custom_command_standard
      else if kwarg_in t [$"TARGET"] then parse_add_custom_command_events
      else parse_add_custom_command_standard
  end).

(** parse_add_custom_target, funs/add_xxx.py 144-271.  The python state variable
    is "name" exactly until the first positional group has been appended; the
    "first-command" and "kwargs" states pick the same sub-parsers. *)
Definition act_kw : list (str * parser) := [
  ($"BYPRODUCTS", posplus); ($"COMMAND", PShell); ($"COMMENT", pos1); ($"DEPENDS", posplus);
  ($"JOB_POOL", pos1); ($"SOURCES", posplus); ($"WORKING_DIRECTORY", pos1)].
Definition act_flags : list str := [$"VERBATIM"; $"USES_TERMINAL"; $"COMMAND_EXPAND_LISTS"].
Definition has_parg_group (acc : list pnode) : bool :=
  existsb (fun n => match n with N (KPargGroup _ _ _) _ => true | _ => false end) acc.
Definition act_step (acc : list pnode) (toks : list token) : gaction :=
  let keys := map fst act_kw in
  let child := [keys ++ act_flags] in
  let dflt := GPos (psp (NStr $"+") nil) child false nil in
  match toks with
  | t :: r =>
      if negb (has_parg_group acc) then
        let all := match first_sem r with Some t2 => kwarg_in t2 [$"ALL"] | None => false end in
        GPos (psp (NInt (if all then 2 else 1)) [$"ALL"]) child false nil
      else
        match normalized_kwarg t with
        | Some w =>
            if smem w act_flags then GFlags act_flags [keys]
            else match kw_lookup w act_kw with
                 | Some p => GKw w p child no_check
                 | None => dflt
                 end
        | None => dflt
        end
  | nil => dflt
  end.
Definition parse_add_custom_target : parser := PSeq [SWs] (Some (GSpec keep_none act_step)).

(** parse_install_files and parse_install_programs, funs/deprecated.py 41-82 *)
Definition dep_parse_install_files : parser := PDisp (fun toks =>
  if sem_is toks 1 $"FILES" then sat (NStr $"3+") nil [$"FILES"]
  else match nth_semantic toks 2 with
       | None => sat (NInt 2) nil nil
       | Some _ => sat (NStr $"3+") nil nil
       end).

(** parse_file_write, funs/file.py 122-140 *)
Definition parse_file_write : parser :=
  PSeq [SWsComments; SPos (psp (NInt 2) [$"WRITE"; $"APPEND"]) nil false;
        SWsComments; SPos (psp (NStr $"+") nil) nil false] None.
(** parse_file, funs/file.py 324-422 *)
Definition hash_strings : list str :=
  [$"MD5"; $"SHA1"; $"SHA224"; $"SHA256"; $"SHA384"; $"SHA512";
   $"SHA3_224"; $"SHA3_256"; $"SHA3_384"; $"SHA3_512"].
Definition file_map : list (str * parser) := [
  ($"READ", parse_file_read); ($"STRINGS", parse_file_strings);
  ($"TIMESTAMP", parse_file_timestamp); ($"WRITE", parse_file_write);
  ($"APPEND", parse_file_write); ($"TOUCH", sat (NStr $"+") nil [$"TOUCH"]);
  ($"TOUCH_NOCREATE", sat (NStr $"+") nil [$"TOUCH_NOCREATE"]);
  ($"GENERATE", parse_file_generate_output); ($"GLOB", parse_file_glob);
  ($"GLOB_RECURSE", parse_file_glob); ($"RENAME", sat (NInt 3) nil [$"RENAME"]);
  ($"REMOVE", sat (NStr $"+") nil [$"REMOVE"]);
  ($"REMOVE_RECURSE", sat (NStr $"+") nil [$"REMOVE_RECURSE"]);
  ($"MAKE_DIRECTORY", sat (NStr $"+") nil [$"MAKE_DIRECTORY"]);
  ($"COPY", parse_file_copy); ($"INSTALL", parse_file_copy);
  ($"SIZE", sat (NInt 3) nil [$"SIZE"]); ($"READ_SYMLINK", sat (NInt 3) nil [$"READ_SYMLINK"]);
  ($"CREATE_LINK", parse_file_create_link);
  ($"RELATIVE_PATH", sat (NInt 4) nil [$"RELATIVE_PATH"]);
  ($"TO_CMAKE_PATH", sat (NInt 3) nil [$"TO_CMAKE_PATH"]);
  ($"TO_NATIVE_PATH", sat (NInt 3) nil [$"TO_NATIVE_PATH"]);
  ($"DOWNLOAD", parse_file_xfer); ($"UPLOAD", parse_file_xfer); ($"LOCK", parse_file_lock)]
  ++ map (fun h => (h, parse_file_hash)) hash_strings.
(** the dispatch on the first argument shared by file() and list() *)
Definition disp_first (m : list (str * parser)) : parser := PDisp (fun toks =>
  match first_sem toks with
  | None => sat_any
  | Some t =>
      if is_tt RIGHT_PAREN t then sat_any
      else if is_tt DEREF t then sat_any
      else match kw_lookup (upper (spelling t)) m with Some p => p | None => sat_any end
  end).
Definition parse_file : parser := disp_first file_map.

(** parse_list, funs/list.py 16-130 *)
Definition list_sort_kw : list (str * parser) := [
  ($"COMPARE", sat (NInt 1) nil [$"STRING"; $"FILE_BASENAME"]);
  ($"CASE", sat (NInt 1) nil [$"SENSITIVE"; $"INSENSITIVE"]);
  ($"ORDER", sat (NInt 1) nil [$"ASCENDING"; $"DESCENDING"])].
Definition list_transform_kw : list (str * parser) := [
  ($"APPEND", sat (NInt 1) nil nil); ($"PREPEND", sat (NInt 1) nil nil);
  ($"TOLOWER", PNull); ($"TOUPPER", PNull); ($"STRIP", PNull); ($"GENEX_STRIP", PNull);
  ($"REPLACE", sat (NInt 2) nil nil); ($"AT", sat (NStr $"+") nil nil);
  ($"FOR", sat (NStr $"2+") nil nil); ($"REGEX", sat (NInt 1) nil nil)].
Definition list_map : list (str * parser) := [
  ($"LENGTH", sat (NInt 3) nil [$"LENGTH"]); ($"GET", sat (NStr $"4+") nil [$"GET"]);
  ($"JOIN", sat (NInt 4) nil [$"JOIN"]); ($"SUBLIST", sat (NInt 5) nil [$"SUBLIST"]);
  ($"FIND", sat (NInt 4) nil [$"FIND"]); ($"APPEND", sat (NStr $"2+") nil [$"APPEND"]);
  ($"FILTER", sat (NInt 5) nil [$"FILTER"; $"INCLUDE"; $"EXCLUDE"; $"REGEX"]);
  ($"INSERT", sat (NStr $"4+") nil [$"INSERT"]);
  ($"POP_BACK", sat (NStr $"2+") nil [$"POP_BACK"]);
  ($"POP_FRONT", sat (NStr $"2+") nil [$"POP_FRONT"]);
  ($"PREPEND", sat (NStr $"2+") nil [$"PREPEND"]);
  ($"REMOVE_ITEM", sat (NStr $"3+") nil [$"REMOVE_ITEM"]);
  ($"REMOVE_AT", sat (NStr $"3+") nil [$"REMOVE_AT"]);
  ($"REMOVE_DUPLICATES", sat (NInt 2) nil [$"REMOVE_DUPLICATES"]);
  ($"TRANSFORM", sat (NInt 2) list_transform_kw [$"TRANSFORM"]);
  ($"REVERSE", sat (NInt 2) nil [$"REVERSE"]);
  ($"SORT", sat (NInt 2) list_sort_kw [$"SORT"])].
Definition parse_list : parser := disp_first list_map.

(** parse_install, funs/install.py 283-321 *)
Definition install_map : list (str * parser) := [
  ($"TARGETS", PInstallTargets); ($"FILES", parse_install_files); ($"PROGRAMS", parse_install_files);
  ($"DIRECTORY", parse_install_directory); ($"SCRIPT", parse_install_script);
  ($"CODE", parse_install_script); ($"EXPORT", parse_install_export)].
Definition parse_install : parser := PDisp (fun toks =>
  match first_sem toks with
  | None => need_tok toks sat_any
  | Some t => match kw_lookup (upper (spelling t)) install_map with Some p => p | None => sat_any end
  end).

(** parse_build_command, funs/miscellaneous.py 14-39: [spelling.upper not in
    kwargs] compares the bound method, so it always holds *)
Definition parse_build_command : parser := PDisp (fun toks =>
  match nth_semantic toks 1 with
  | Some _ => sat (NStr $"2") nil nil
  | None => sat (NStr $"1") [($"CONFIGURATION", pos1); ($"TARGET", pos1); ($"PROJECT_NAME", pos1)] nil
  end).
(** parse_cmake_parse_arguments, funs/miscellaneous.py 42-60: [spelling.upper ==
    "PARSE_ARGV"] compares the bound method, so it never holds *)
Definition parse_cmake_parse_arguments : parser := sat (NStr $"5+") nil nil.
(** parse_cmake_policy, funs/miscellaneous.py 63-101 *)
Definition parse_cmake_policy : parser := PDisp (fun toks =>
  match first_sem toks with
  | None => sat (NStr $"+") nil nil
  | Some t =>
      if is_tt DEREF t then sat (NStr $"+") nil nil
      else if sem_is toks 0 $"VERSION" then sat (NStr $"2+") nil [$"VERSION"]
      else if sem_is toks 0 $"SET" then sat (NInt 3) nil [$"SET"; $"OLD"; $"NEW"]
      else if sem_is toks 0 $"GET" then sat (NInt 3) nil [$"GET"]
      else sat (NInt 1) nil [$"PUSH"; $"POP"]
  end).
(** parse_get_filename_component, funs/miscellaneous.py 160-186 *)
Definition parse_get_filename_component : parser := PDisp (fun toks =>
  if sem_is toks 2 $"PROGRAM" then sat (NStr $"3+") nil [$"PROGRAM"; $"PROGRAM_ARGS"; $"CACHE"]
  else sat (NStr $"3+") nil [$"DIRECTORY"; $"NAME"; $"EXT"; $"NAME_WE"; $"ABSOLUTE"; $"REALPATH"; $"PATH"]).
(** parse_source_group, funs/miscellaneous.py 428-455 *)
Definition parse_source_group : parser := PDisp (fun toks =>
  if sem_is toks 0 $"TREE" then sat (NInt 2) [($"PREFIX", pos1); ($"FILES", posplus)] nil
  else match sem_upper toks 1 with
       | Some u => if smem u [$"FILES"; $"REGULAR_EXPRESSION"]
                   then sat (NInt 1) [($"FILES", posplus); ($"REGULAR_EXPRESSION", pos1)] nil
                   else sat (NInt 2) nil nil
       | None => sat (NInt 1) [($"FILES", posplus); ($"REGULAR_EXPRESSION", pos1)] nil
       end).
(** parse_ctest_sleep, funs/random.py 170-182 *)
Definition parse_ctest_sleep : parser := PDisp (fun toks =>
  match semantics toks with
  | [_] => sat (NInt 1) nil nil
  | _ => sat (NInt 3) nil nil
  end).

(** ** The table, funs/__init__.py 67-89 *)

(** the populate_db functions *)
Definition hand_table (vt : list ((str -> bool) * list str)) : list (str * parser) := [
  ($"add_executable", parse_add_executable);
  ($"add_library", parse_add_library);
  ($"add_custom_command", parse_add_custom_command);
  ($"add_custom_target", parse_add_custom_target);
  ($"add_compile_options", parse_add_compile_options);
  ($"add_definitions", parse_add_definitions);
  ($"add_dependencies", parse_add_dependencies);
  ($"add_subdirectory", parse_add_subdirectory);
  ($"aux_source_directory", parse_aux_source_directory);
  ($"build_name", dep_parse_build_name);
  ($"exec_program", dep_parse_exec_program);
  ($"install_files", dep_parse_install_files);
  ($"install_programs", dep_parse_install_files);
  ($"install_targets", dep_parse_install_targets);
  ($"make_directory", dep_parse_make_directory);
  ($"remove", dep_parse_remove);
  ($"subdir_depends", dep_parse_subdir_depends);
  ($"subdirs", dep_parse_subdirs);
  ($"use_mangled_mesa", dep_parse_use_mangled_mesa);
  ($"utility_source", dep_parse_utility_source);
  ($"variable_requires", dep_parse_variable_requires);
  ($"write_file", dep_parse_write_file);
  ($"break", parse_empty);
  ($"continue", parse_empty);
  ($"enable_testing", parse_empty);
  ($"return", parse_empty);
  ($"externalproject_add", parse_external_project_add);
  ($"externalproject_get_property", sat (NStr $"+") nil nil);
  ($"externalproject_add_step", parse_external_project_add_step);
  ($"externalproject_add_steptargets", sat (NStr $"+") nil [$"NO_DEPENDS"]);
  ($"externalproject_add_stepdependencies", sat (NStr $"+") nil nil);
  ($"fetchcontent_declare", parse_fetchcontent_declare);
  ($"fetchcontent_populate", parse_fetchcontent_populate);
  ($"fetchcontent_getproperties", parse_fetchcontent_getproperties);
  ($"fetchcontent_makeavailable", sat (NStr $"+") nil nil);
  ($"foreach", parse_foreach);
  ($"file", parse_file);
  ($"install", parse_install);
  ($"list", parse_list);
  ($"build_command", parse_build_command);
  ($"cmake_parse_arguments", parse_cmake_parse_arguments);
  ($"cmake_policy", parse_cmake_policy);
  ($"create_test_sourcelist", parse_create_test_sourcelist);
  ($"export_library_dependencies", parse_export_library_dependencies);
  ($"fltk_wrap_ui", parse_fltk_wrap_ui);
  ($"get_cmake_property", parse_get_cmake_property);
  ($"get_filename_component", parse_get_filename_component);
  ($"get_source_file_property", parse_get_source_file_property);
  ($"get_target_property", parse_get_target_property);
  ($"get_test_property", parse_get_test_property);
  ($"include_external_msproject", parse_include_external_msproject);
  ($"include_guard", parse_include_guard);
  ($"include_regular_expression", parse_include_regular_expression);
  ($"link_directories", parse_link_directories);
  ($"link_libraries", parse_link_libraries);
  ($"load_cache", parse_load_cache);
  ($"load_command", parse_load_command);
  ($"math", parse_math);
  ($"option", parse_option);
  ($"output_required_files", parse_output_required_files);
  ($"qt_wrap_cpp", parse_qt_wrap_cpp);
  ($"qt_wrap_ui", parse_qt_wrap_ui);
  ($"remove_definitions", parse_remove_definitions);
  ($"separate_arguments", parse_separate_arguments);
  ($"set_source_files_properties", parse_set_source_files_properties);
  ($"site_name", parse_site_name);
  ($"source_group", parse_source_group);
  ($"ctest_build", parse_ctest_build);
  ($"ctest_configure", parse_ctest_configure);
  ($"ctest_coverage", parse_ctest_coverage);
  ($"ctest_empty_binary_directory", parse_ctest_empty_binary_directory);
  ($"ctest_memcheck", parse_ctest_memcheck);
  ($"ctest_read_custom_files", parse_ctest_read_custom_files);
  ($"ctest_run_script", parse_ctest_run_script);
  ($"ctest_sleep", parse_ctest_sleep);
  ($"ctest_start", parse_ctest_start);
  ($"ctest_submit", parse_ctest_submit);
  ($"ctest_test", parse_ctest_test);
  ($"ctest_update", parse_ctest_update);
  ($"ctest_upload", parse_ctest_upload);
  ($"target_compile_definitions", parse_target_compile_definitions);
  ($"target_compile_features", parse_target_compile_features);
  ($"target_sources", parse_target_sources);
  ($"unset", parse_unset);
  ($"variable_watch", parse_variable_watch);
  ($"add_compile_definitions", parse_add_compile_definitions);
  ($"set", parse_set vt);
  ($"set_target_properties", parse_set_target_properties)].
(** the if family, function/macro and their terminators *)
Definition flow_table : list (str * parser) :=
  map (fun k => (k, PCond)) [$"if"; $"else"; $"elseif"; $"endif"; $"while"; $"endwhile"]
  ++ map (fun k => (k, sat (NStr $"1+") nil nil)) [$"function"; $"macro"]
  ++ map (fun k => (k, sat (NStr $"?") nil nil)) [$"endfunction"; $"endmacro"].
(** get_funtree(get_fn_spec()), standard_funs.py 34-45 *)
Definition spec_table : list (str * parser) :=
  match user_table (builtin_specs ++ module_specs) with Ok l => l | _ => nil end.
(** get_parse_db, later entries first *)
Definition std_table (vt : list ((str -> bool) * list str)) : list (str * parser) :=
  spec_table ++ flow_table ++ hand_table vt.

(** ParseContext of a run, format/__main__.py 150-157: the standard table
    updated with the user's commands. *)
Definition std_ctx (ex : str -> bool) (vt : list ((str -> bool) * list str))
  (user : list (str * parser)) : pctx :=
  PCtx ex vt (with_user user (std_table vt)).
