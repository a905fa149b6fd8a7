(** * StdSpecs: the command specification tables shipped with the tool.
    Translated mechanically from the python literals in
    cmakelang/parse/funs/standard_builtins.py and standard_modules.py. *)
From Verif Require Import Base Regex Lex Tree Parse CmdSpec.

(** FUNSPECS of funs/standard_builtins.py, in the order of [sorted(...)] (standard_funs.py 42-44) *)
Definition builtin_specs : list (str * uspec) := [
  ($"add_test", (USpec UNone nil [($"COMMAND", UKSpec (USpec (UScalar (NStr $"+")) nil [($"ARGS", UKScalar (NStr $"*"))] None None));
      ($"CONFIGURATIONS", UKScalar (NStr $"*"));
      ($"NAME", UKScalar (NStr $"*"));
      ($"WORKING_DIRECTORY", UKScalar (NStr $"*"))] None None));
  ($"cmake_host_system_information", (USpec UNone nil [($"QUERY", UKScalar (NStr $"*"));
      ($"RESULT", UKScalar (NStr $"*"))] None None));
  ($"cmake_minimum_required", (USpec UNone [$"FATAL_ERROR"] [($"VERSION", UKScalar (NStr $"*"))] None None));
  ($"cmake_minimum_required_version", (USpec UNone nil [($"VERSION", UKScalar (NStr $"*"))] None None));
  ($"configure_file", (USpec UNone [$"@ONLY"; $"COPYONLY"; $"ESCAPE_QUOTES"] [($"NEWLINE_STYLE", UKScalar (NStr $"*"))] None None));
  ($"define_property", (USpec UNone [$"CACHED_VARIABLE"; $"DIRECTORY"; $"GLOBAL"; $"INHERITED"; $"SOURCE"; $"TARGET"; $"TEST"; $"VARIABLE"] [($"BRIEF_DOCS", UKScalar (NStr $"*"));
      ($"FULL_DOCS", UKScalar (NStr $"*"));
      ($"PROPERTY", UKScalar (NStr $"*"))] None None));
  ($"enable_language", (USpec UNone [$"OPTIONAL"] nil None None));
  ($"execute_process", (USpec UNone [$"ERROR_QUIET"; $"ERROR_STRIP_TRAILING_WHITESPACE"; $"OUTPUT_QUIET"; $"OUTPUT_STRIP_TRAILING_WHITESPACE"] [($"COMMAND", UKScalar (NStr $"*"));
      ($"ERROR_FILE", UKScalar (NStr $"*"));
      ($"ERROR_VARIABLE", UKScalar (NStr $"*"));
      ($"INPUT_FILE", UKScalar (NStr $"*"));
      ($"OUTPUT_FILE", UKScalar (NStr $"*"));
      ($"OUTPUT_VARIABLE", UKScalar (NStr $"*"));
      ($"RESULT_VARIABLE", UKScalar (NStr $"*"));
      ($"TIMEOUT", UKScalar (NStr $"*"));
      ($"WORKING_DIRECTORY", UKScalar (NStr $"*"))] None None));
  ($"export", (USpec UNone [$"APPEND"; $"EXPORT_LINK_INTERFACE_LIBRARIES"] [($"ANDROID_MK", UKScalar (NInt 1));
      ($"EXPORT", UKScalar (NInt 1));
      ($"FILE", UKScalar (NInt 1));
      ($"NAMESPACE", UKScalar (NInt 1));
      ($"PACKAGE", UKScalar (NInt 1));
      ($"TARGETS", UKScalar (NStr $"+"))] None None));
  ($"find_file", (USpec UNone [$"CMAKE_FIND_ROOT_PATH_BOTH"; $"NO_CMAKE_ENVIRONMENT_PATH"; $"NO_CMAKE_FIND_ROOT_PATH"; $"NO_CMAKE_PATH"; $"NO_CMAKE_SYSTEM_PATH"; $"NO_DEFAULT_PATH"; $"NO_SYSTEM_ENVIRONMENT_PATH"; $"ONLY_CMAKE_FIND_ROOT_PATH"] [($"DOC", UKScalar (NStr $"*"));
      ($"HINTS", UKScalar (NStr $"*"));
      ($"NAMES", UKScalar (NStr $"*"));
      ($"PATHS", UKScalar (NStr $"*"));
      ($"PATH_SUFFIXES", UKScalar (NStr $"*"))] None None));
  ($"find_library", (USpec UNone [$"CMAKE_FIND_ROOT_PATH_BOTH"; $"NO_CMAKE_ENVIRONMENT_PATH"; $"NO_CMAKE_FIND_ROOT_PATH"; $"NO_CMAKE_PATH"; $"NO_CMKE_SYSTEM_PATH"; $"NO_DEFAULT_PATH"; $"NO_SYSTEM_ENVIRONMENT_PATH"; $"ONLY_CMAKE_FIND_ROOT_PATH"] [($"DOC", UKScalar (NStr $"*"));
      ($"HINTS", UKScalar (NStr $"*"));
      ($"NAMES", UKScalar (NStr $"*"));
      ($"PATHS", UKScalar (NStr $"*"));
      ($"PATH_SUFFIXES", UKScalar (NStr $"*"))] None None));
  ($"find_package", (USpec (UScalar (NStr $"*")) [$"EXACT"; $"MODULE"; $"REQUIRED"; $"NO_POLICY_SCOPE"; $"QUIET"] [($"COMPONENTS", UKScalar (NStr $"*"));
      ($"OPTIONAL_COMPONENTS", UKScalar (NStr $"*"))] None None));
  ($"find_path", (USpec UNone [$"CMAKE_FIND_ROOT_PATH_BOTH"; $"NO_CMAKE_ENVIRONMENT_PATH"; $"NO_CMAKE_FIND_ROOT_PATH"; $"NO_CMAKE_PATH"; $"NO_CMKE_SYSTEM_PATH"; $"NO_DEFAULT_PATH"; $"NO_SYSTEM_ENVIRONMENT_PATH"; $"ONLY_CMAKE_FIND_ROOT_PATH"] [($"DOC", UKScalar (NStr $"*"));
      ($"HINTS", UKScalar (NStr $"*"));
      ($"NAMES", UKScalar (NStr $"*"));
      ($"PATHS", UKScalar (NStr $"*"));
      ($"PATH_SUFFIXES", UKScalar (NStr $"*"))] None None));
  ($"find_program", (USpec UNone [$"CMAKE_FIND_ROOT_PATH_BOTH"; $"NO_CMAKE_ENVIRONMENT_PATH"; $"NO_CMAKE_FIND_ROOT_PATH"; $"NO_CMAKE_PATH"; $"NO_CMAKE_SYSTEM_PATH"; $"NO_DEFAULT_PATH"; $"NO_SYSTEM_ENVIRONMENT_PATH"; $"ONLY_CMAKE_FIND_ROOT_PATH"] [($"DOC", UKScalar (NStr $"*"));
      ($"HINTS", UKScalar (NStr $"*"));
      ($"NAMES", UKScalar (NStr $"*"));
      ($"PATHS", UKScalar (NStr $"*"));
      ($"PATH_SUFFIXES", UKScalar (NStr $"*"))] None None));
  ($"get_directory_property", (USpec UNone nil [($"DIRECTORY", UKScalar (NStr $"*"))] None None));
  ($"get_property", (USpec UNone [$"BRIEF_DOCS"; $"DEFINED"; $"FULL_DOCS"; $"GLOBAL"; $"SET"; $"VARIABLE"] [($"CACHE", UKScalar (NStr $"*"));
      ($"DIRECTORY", UKScalar (NStr $"*"));
      ($"PROPERTY", UKScalar (NStr $"*"));
      ($"SOURCE", UKScalar (NStr $"*"));
      ($"TARGET", UKScalar (NStr $"*"));
      ($"TEST", UKScalar (NStr $"*"))] None None));
  ($"include", (USpec UNone [$"NO_POLICY_SCOPE"; $"OPTIONAL"] [($"RESULT_VARIABLE", UKScalar (NStr $"*"))] None None));
  ($"include_directories", (USpec UNone [$"AFTER"; $"BEFORE"; $"SYSTEM"] nil None None));
  ($"mark_as_advanced", (USpec UNone [$"CLEAR"; $"FORCE"] nil None None));
  ($"message", (USpec UNone nil [($"AUTHOR_WARNING", UKScalar (NStr $"*"));
      ($"DEPRECATION", UKScalar (NStr $"*"));
      ($"FATAL_ERROR", UKScalar (NStr $"*"));
      ($"SEND_ERROR", UKScalar (NStr $"*"));
      ($"STATUS", UKScalar (NStr $"*"));
      ($"WARNING", UKScalar (NStr $"*"))] None None));
  ($"project", (USpec UNone nil [($"DESCRIPTION", UKScalar (NInt 1));
      ($"HOMEPAGE_URL", UKScalar (NInt 1));
      ($"LANGUAGES", UKScalar (NStr $"*"));
      ($"VERSION", UKScalar (NStr $"*"))] None None));
  ($"set_directory_properties", (USpec UNone nil [($"PROPERTIES", UKScalar (NStr $"*"))] None None));
  ($"set_property", (USpec UNone [$"APPEND"; $"APPEND_STRING"; $"GLOBAL"] [($"CACHE", UKScalar (NStr $"*"));
      ($"DIRECTORY", UKScalar (NStr $"*"));
      ($"PROPERTY", UKScalar (NStr $"*"));
      ($"SOURCE", UKScalar (NStr $"*"));
      ($"TARGET", UKScalar (NStr $"*"));
      ($"TEST", UKScalar (NStr $"*"))] None None));
  ($"set_tests_properties", (USpec UNone nil [($"PROPERTIES", UKScalar (NStr $"*"))] None None));
  ($"string", (USpec UNone [$"@ONLY"; $"ESCAPE_QUOTES"; $"REVERSE"; $"UTC"] [($"ALPHABET", UKScalar (NStr $"*"));
      ($"ASCII", UKScalar (NStr $"*"));
      ($"COMPARE", UKScalar (NStr $"*"));
      ($"CONCAT", UKScalar (NStr $"*"));
      ($"CONFIGURE", UKScalar (NStr $"*"));
      ($"FIND", UKScalar (NStr $"*"));
      ($"LENGTH", UKScalar (NStr $"*"));
      ($"MAKE_C_IDENTIFIER", UKScalar (NStr $"*"));
      ($"MD5", UKScalar (NStr $"*"));
      ($"RANDOM", UKScalar (NStr $"*"));
      ($"RANDOM_SEED", UKScalar (NStr $"*"));
      ($"REGEX", UKScalar (NStr $"*"));
      ($"REPLACE", UKScalar (NStr $"*"));
      ($"SHA1", UKScalar (NStr $"*"));
      ($"SHA256", UKScalar (NStr $"*"));
      ($"SHA384", UKScalar (NStr $"*"));
      ($"SHA512", UKScalar (NStr $"*"));
      ($"STRIP", UKScalar (NStr $"*"));
      ($"SUBSTRING", UKScalar (NStr $"*"));
      ($"TIMESTAMP", UKScalar (NStr $"*"));
      ($"TOLOWER", UKScalar (NStr $"*"));
      ($"TOUPPER", UKScalar (NStr $"*"))] None None));
  ($"target_compile_options", (USpec UNone nil [($"PRIVATE", UKScalar (NStr $"+"));
      ($"PUBLIC", UKScalar (NStr $"+"));
      ($"INTERFACE", UKScalar (NStr $"+"))] None None));
  ($"target_include_directories", (USpec UNone nil [($"PRIVATE", UKScalar (NStr $"+"));
      ($"PUBLIC", UKScalar (NStr $"+"));
      ($"INTERFACE", UKScalar (NStr $"+"))] None None));
  ($"target_link_libraries", (USpec UNone nil [($"PRIVATE", UKScalar (NStr $"+"));
      ($"PUBLIC", UKScalar (NStr $"+"));
      ($"INTERFACE", UKScalar (NStr $"+"))] None None));
  ($"try_compile", (USpec (UList [DScalar (NInt 2); DScalar (NStr $"+")]) nil [($"CMAKE_FLAGS", UKScalar (NStr $"*"));
      ($"COMPILE_DEFINITIONS", UKScalar (NStr $"*"));
      ($"COPY_FILE", UKScalar (NStr $"*"));
      ($"LINK_OPTIONS", UKScalar (NStr $"*"));
      ($"LINK_LIBRARIES", UKScalar (NStr $"*"));
      ($"OUTPUT_VARIABLE", UKScalar (NStr $"*"));
      ($"RESULT_VAR", UKScalar (NStr $"*"));
      ($"SOURCES", UKScalar (NStr $"*"))] None None));
  ($"try_run", (USpec UNone nil [($"ARGS", UKScalar (NStr $"*"));
      ($"CMAKE_FLAGS", UKScalar (NStr $"*"));
      ($"COMPILE_DEFINITIONS", UKScalar (NStr $"*"));
      ($"COMPILE_OUTPUT_VARIABLE", UKScalar (NStr $"*"));
      ($"OUTPUT_VARIABLE", UKScalar (NStr $"*"));
      ($"RUN_OUTPUT_VARIABLE", UKScalar (NStr $"*"))] None None))
].

(** FUNSPECS of funs/standard_modules.py, in the order of [sorted(...)] (standard_funs.py 42-44) *)
Definition module_specs : list (str * uspec) := [
  ($"add_command", (USpec (UDict (PDict false (Some (NInt 1)) None None None None None false)) nil nil None None));
  ($"add_compiler_export_flags", (USpec (UDict (PDict false (Some (NInt 0)) None None None None None false)) nil nil None None));
  ($"add_feature_info", (USpec (UDict (PDict false (Some (NInt 3)) None None None None None false)) nil nil None None));
  ($"add_file_dependencies", (USpec (UDict (PDict false (Some (NInt 1)) None None None None None false)) nil nil None None));
  ($"add_flex_bison_dependency", (USpec (UDict (PDict false (Some (NInt 2)) None None None None None false)) nil nil None None));
  ($"add_jar", (USpec (UDict (PDict false (Some (NStr $"1+")) None None None None None false)) nil [($"ENTRY_POINT", UKScalar (NInt 1));
      ($"INCLUDE_JARS", UKScalar (NStr $"+"));
      ($"MANIFEST", UKScalar (NInt 1));
      ($"OUTPUT_DIR", UKScalar (NInt 1));
      ($"OUTPUT_NAME", UKScalar (NInt 1));
      ($"SOURCES", UKScalar (NStr $"+"));
      ($"VERSION", UKScalar (NInt 1))] None None));
  ($"adjust_cmake_system_variables", (USpec (UDict (PDict false (Some (NInt 1)) None None None None None false)) nil nil None None));
  ($"android_add_test_data", (USpec (UDict (PDict false (Some (NStr $"1+")) None None None None None false)) nil [($"DEVICE_OBJECT_STORE", UKScalar (NInt 1));
      ($"DEVICE_TEST_DIR", UKScalar (NInt 1));
      ($"FILES", UKScalar (NStr $"+"));
      ($"FILES_DEST", UKScalar (NInt 1));
      ($"LIBS", UKScalar (NStr $"+"));
      ($"LIBS_DEST", UKScalar (NInt 1));
      ($"NO_LINK_REGEX", UKScalar (NStr $"+"))] None None));
  ($"bison_target", (USpec (UDict (PDict false (Some (NStr $"3+")) None None None None None false)) nil [($"COMPILE_FLAGS", UKScalar (NInt 1));
      ($"DEFINES_FILE", UKScalar (NInt 1));
      ($"REPORT_FILE", UKScalar (NInt 1));
      ($"VERBOSE", UKScalar (NStr $"+"))] None None));
  ($"bison_target_option_defines", (USpec (UDict (PDict false (Some (NInt 2)) None None None None None false)) nil nil (Some $"BISON_TARGET_option_defines") None));
  ($"bison_target_option_extraopts", (USpec (UDict (PDict false (Some (NInt 1)) None None None None None false)) nil nil (Some $"BISON_TARGET_option_extraopts") None));
  ($"bison_target_option_report_file", (USpec (UDict (PDict false (Some (NInt 2)) None None None None None false)) nil nil (Some $"BISON_TARGET_option_report_file") None));
  ($"bison_target_option_verbose", (USpec (UDict (PDict false (Some (NInt 3)) None None None None None false)) nil nil (Some $"BISON_TARGET_option_verbose") None));
  ($"check_c_compiler_flag", (USpec (UDict (PDict false (Some (NInt 2)) None None None None None false)) nil nil None None));
  ($"check_c_source_compiles", (USpec (UDict (PDict false (Some (NInt 2)) None None None None None false)) nil nil None None));
  ($"check_c_source_runs", (USpec (UDict (PDict false (Some (NInt 2)) None None None None None false)) nil nil None None));
  ($"check_compiler_flag_common_patterns", (USpec (UDict (PDict false (Some (NInt 1)) None None None None None false)) nil nil None None));
  ($"check_cxx_accepts_flag", (USpec (UDict (PDict false (Some (NInt 2)) None None None None None false)) nil nil None None));
  ($"check_cxx_compiler_flag", (USpec (UDict (PDict false (Some (NInt 2)) None None None None None false)) nil nil None None));
  ($"check_cxx_source_compiles", (USpec (UDict (PDict false (Some (NInt 2)) None None None None None false)) nil nil None None));
  ($"check_cxx_source_runs", (USpec (UDict (PDict false (Some (NInt 2)) None None None None None false)) nil nil None None));
  ($"check_cxx_symbol_exists", (USpec (UDict (PDict false (Some (NInt 3)) None None None None None false)) nil nil None None));
  ($"check_fortran_compiler_flag", (USpec (UDict (PDict false (Some (NInt 2)) None None None None None false)) nil nil (Some $"CHECK_Fortran_COMPILER_FLAG") None));
  ($"check_fortran_function_exists", (USpec (UDict (PDict false (Some (NInt 2)) None None None None None false)) nil nil None None));
  ($"check_fortran_libraries", (USpec (UDict (PDict false (Some (NInt 6)) None None None None None false)) nil nil (Some $"Check_Fortran_Libraries") None));
  ($"check_fortran_source_compiles", (USpec (UDict (PDict false (Some (NInt 2)) None None None None None false)) nil nil (Some $"CHECK_Fortran_SOURCE_COMPILES") None));
  ($"check_function_exists", (USpec (UDict (PDict false (Some (NInt 2)) None None None None None false)) nil nil None None));
  ($"check_include_file", (USpec (UDict (PDict false (Some (NInt 2)) None None None None None false)) nil nil None None));
  ($"check_include_file_cxx", (USpec (UDict (PDict false (Some (NInt 2)) None None None None None false)) nil nil None None));
  ($"check_include_files", (USpec (UDict (PDict false (Some (NInt 2)) None None None None None false)) nil nil None None));
  ($"check_ipo_supported", (USpec (UDict (PDict false (Some (NStr $"*")) None None None None None false)) nil [($"LANGUAGES", UKScalar (NStr $"+"));
      ($"OUTPUT", UKScalar (NInt 1));
      ($"RESULT", UKScalar (NInt 1))] None None));
  ($"check_language", (USpec (UDict (PDict false (Some (NInt 1)) None None None None None false)) nil nil None None));
  ($"check_lapack_libraries", (USpec (UDict (PDict false (Some (NInt 7)) None None None None None false)) nil nil (Some $"Check_Lapack_Libraries") None));
  ($"check_library_exists", (USpec (UDict (PDict false (Some (NInt 4)) None None None None None false)) nil nil None None));
  ($"check_prototype_definition", (USpec (UDict (PDict false (Some (NInt 5)) None None None None None false)) nil nil None None));
  ($"check_required_var", (USpec (UDict (PDict false (Some (NInt 1)) None None None None None false)) nil nil None None));
  ($"check_struct_has_member", (USpec (UDict (PDict false (Some (NInt 4)) None None None None None false)) nil nil None None));
  ($"check_symbol_exists", (USpec (UDict (PDict false (Some (NInt 3)) None None None None None false)) nil nil None None));
  ($"check_type_size", (USpec (UDict (PDict false (Some (NInt 2)) None None None None None false)) nil nil None None));
  ($"check_variable_exists", (USpec (UDict (PDict false (Some (NInt 2)) None None None None None false)) nil nil None None));
  ($"check_version", (USpec (UDict (PDict false (Some (NInt 2)) None None None None None false)) nil nil None None));
  ($"clear_bundle_keys", (USpec (UDict (PDict false (Some (NInt 1)) None None None None None false)) nil nil None None));
  ($"cmake_add_fortran_subdirectory", (USpec (UDict (PDict false (Some (NStr $"1+")) None None (Some [$"NO_EXTERNAL_INSTALL"]) None None false)) nil [($"ARCHIVE_DIR", UKScalar (NInt 1));
      ($"CMAKE_COMMAND_LINE", UKScalar (NStr $"+"));
      ($"LIBRARIES", UKScalar (NStr $"+"));
      ($"LINK_LIBRARIES", UKScalar (NStr $"+"));
      ($"PROJECT", UKScalar (NInt 1));
      ($"RUNTIME_DIR", UKScalar (NInt 1))] None None));
  ($"cmake_dependent_option", (USpec (UDict (PDict false (Some (NInt 5)) None None None None None false)) nil nil None None));
  ($"cmake_determine_compile_features", (USpec (UDict (PDict false (Some (NInt 1)) None None None None None false)) nil nil None None));
  ($"cmake_determine_compiler_abi", (USpec (UDict (PDict false (Some (NInt 2)) None None None None None false)) nil nil None None));
  ($"cmake_determine_compiler_id", (USpec (UDict (PDict false (Some (NInt 3)) None None None None None false)) nil nil None None));
  ($"cmake_determine_compiler_id_build", (USpec (UDict (PDict false (Some (NInt 4)) None None None None None false)) nil nil None None));
  ($"cmake_determine_compiler_id_check", (USpec (UDict (PDict false (Some (NInt 2)) None None None None None false)) nil nil None None));
  ($"cmake_determine_compiler_id_match_vendor", (USpec (UDict (PDict false (Some (NInt 2)) None None None None None false)) nil nil None None));
  ($"cmake_determine_compiler_id_vendor", (USpec (UDict (PDict false (Some (NInt 2)) None None None None None false)) nil nil None None));
  ($"cmake_determine_compiler_id_write", (USpec (UDict (PDict false (Some (NInt 2)) None None None None None false)) nil nil None None));
  ($"cmake_determine_msvc_showincludes_prefix", (USpec (UDict (PDict false (Some (NInt 2)) None None None None None false)) nil nil None None));
  ($"cmake_diagnose_unsupported_clang", (USpec (UDict (PDict false (Some (NInt 2)) None None None None None false)) nil nil None None));
  ($"cmake_expand_imported_targets", (USpec (UDict (PDict false (Some (NStr $"1+")) None None None None None false)) nil [($"CONFIGURATION", UKScalar (NInt 1));
      ($"LIBRARIES", UKScalar (NStr $"+"))] None None));
  ($"cmake_export_build_settings", (USpec (UDict (PDict false (Some (NInt 1)) None None None None None false)) nil nil None None));
  ($"cmake_find_frameworks", (USpec (UDict (PDict false (Some (NInt 1)) None None None None None false)) nil nil None None));
  ($"cmake_force_c_compiler", (USpec (UDict (PDict false (Some (NInt 2)) None None None None None false)) nil nil None None));
  ($"cmake_force_cxx_compiler", (USpec (UDict (PDict false (Some (NInt 2)) None None None None None false)) nil nil None None));
  ($"cmake_force_fortran_compiler", (USpec (UDict (PDict false (Some (NInt 2)) None None None None None false)) nil nil (Some $"CMAKE_FORCE_Fortran_COMPILER") None));
  ($"cmake_import_build_settings", (USpec (UDict (PDict false (Some (NInt 1)) None None None None None false)) nil nil None None));
  ($"cmake_parse_implicit_link_info", (USpec (UDict (PDict false (Some (NInt 6)) None None None None None false)) nil nil None None));
  ($"cmake_pop_check_state", (USpec (UDict (PDict false (Some (NInt 0)) None None None None None false)) nil nil None None));
  ($"cmake_print_properties", (USpec (UDict (PDict false (Some (NStr $"*")) None None None None None false)) nil [($"CACHE_ENTRIES", UKScalar (NStr $"+"));
      ($"DIRECTORIES", UKScalar (NStr $"+"));
      ($"PROPERTIES", UKScalar (NStr $"+"));
      ($"SOURCES", UKScalar (NStr $"+"));
      ($"TARGETS", UKScalar (NStr $"+"));
      ($"TESTS", UKScalar (NStr $"+"))] None None));
  ($"cmake_print_variables", (USpec (UDict (PDict false (Some (NInt 0)) None None None None None false)) nil nil None None));
  ($"cmake_push_check_state", (USpec (UDict (PDict false (Some (NInt 0)) None None None None None false)) nil nil None None));
  ($"cmake_reset_check_state", (USpec (UDict (PDict false (Some (NInt 0)) None None None None None false)) nil nil None None));
  ($"compiler_id_detection", (USpec (UDict (PDict false (Some (NStr $"2+")) None None (Some [$"ID_STRING"; $"VERSION_STRINGS"; $"ID_DEFINE"; $"PLATFORM_DEFAULT_COMPILER"]) None None false)) nil [($"PREFIX", UKScalar (NInt 1))] None None));
  ($"configure_package_config_file", (USpec (UDict (PDict false (Some (NStr $"2+")) None None (Some [$"NO_SET_AND_CHECK_MACRO"; $"NO_CHECK_REQUIRED_COMPONENTS_MACRO"]) None None false)) nil [($"INSTALL_DESTINATION", UKScalar (NInt 1));
      ($"INSTALL_PREFIX", UKScalar (NInt 1));
      ($"PATH_VARS", UKScalar (NStr $"+"))] None None));
  ($"copy_and_fixup_bundle", (USpec (UDict (PDict false (Some (NInt 4)) None None None None None false)) nil nil None None));
  ($"copy_resolved_framework_into_bundle", (USpec (UDict (PDict false (Some (NInt 2)) None None None None None false)) nil nil None None));
  ($"copy_resolved_item_into_bundle", (USpec (UDict (PDict false (Some (NInt 2)) None None None None None false)) nil nil None None));
  ($"cpack_add_component", (USpec (UDict (PDict false (Some (NStr $"1+")) None None (Some [$"HIDDEN"; $"REQUIRED"; $"DISABLED"; $"DOWNLOADED"]) None None false)) nil [($"ARCHIVE_FILE", UKScalar (NInt 1));
      ($"DEPENDS", UKScalar (NStr $"+"));
      ($"DESCRIPTION", UKScalar (NInt 1));
      ($"DISPLAY_NAME", UKScalar (NInt 1));
      ($"GROUP", UKScalar (NInt 1));
      ($"INSTALL_TYPES", UKScalar (NStr $"+"));
      ($"PLIST", UKScalar (NInt 1))] None None));
  ($"cpack_add_component_group", (USpec (UDict (PDict false (Some (NStr $"1+")) None None (Some [$"EXPANDED"; $"BOLD_TITLE"]) None None false)) nil [($"DESCRIPTION", UKScalar (NInt 1));
      ($"DISPLAY_NAME", UKScalar (NInt 1));
      ($"PARENT_GROUP", UKScalar (NInt 1))] None None));
  ($"cpack_add_install_type", (USpec (UDict (PDict false (Some (NStr $"1+")) None None None None None false)) nil [($"DISPLAY_NAME", UKScalar (NInt 1))] None None));
  ($"cpack_append_list_variable_set_command", (USpec (UDict (PDict false (Some (NInt 2)) None None None None None false)) nil nil None None));
  ($"cpack_append_option_set_command", (USpec (UDict (PDict false (Some (NInt 2)) None None None None None false)) nil nil None None));
  ($"cpack_append_string_variable_set_command", (USpec (UDict (PDict false (Some (NInt 2)) None None None None None false)) nil nil None None));
  ($"cpack_append_variable_set_command", (USpec (UDict (PDict false (Some (NInt 2)) None None None None None false)) nil nil None None));
  ($"cpack_check_file_exists", (USpec (UDict (PDict false (Some (NInt 2)) None None None None None false)) nil nil None None));
  ($"cpack_configure_downloads", (USpec (UDict (PDict false (Some (NStr $"1+")) None None (Some [$"ALL"; $"ADD_REMOVE"; $"NO_ADD_REMOVE"]) None None false)) nil [($"UPLOAD_DIRECTORY", UKScalar (NInt 1))] None None));
  ($"cpack_deb_prepare_package_vars", (USpec (UDict (PDict false (Some (NInt 0)) None None None None None false)) nil nil None None));
  ($"cpack_deb_variable_fallback", (USpec (UDict (PDict false (Some (NInt 1)) None None None None None false)) nil nil None None));
  ($"cpack_encode_variables", (USpec (UDict (PDict false (Some (NInt 0)) None None None None None false)) nil nil None None));
  ($"cpack_ifw_add_package_resources", (USpec (UDict (PDict false (Some (NInt 0)) None None None None None false)) nil nil None None));
  ($"cpack_ifw_add_repository", (USpec (UDict (PDict false (Some (NStr $"1+")) None None (Some [$"DISABLED"]) None None false)) nil [($"DISPLAY_NAME", UKScalar (NInt 1));
      ($"PASSWORD", UKScalar (NInt 1));
      ($"URL", UKScalar (NInt 1));
      ($"USERNAME", UKScalar (NInt 1))] None None));
  ($"cpack_ifw_configure_component", (USpec (UDict (PDict false (Some (NStr $"1+")) None None (Some [$"COMMON"; $"ESSENTIAL"; $"VIRTUAL"; $"FORCED_INSTALLATION"; $"REQUIRES_ADMIN_RIGHTS"]) None None false)) nil [($"AUTO_DEPEND_ON", UKScalar (NStr $"+"));
      ($"CHECKABLE", UKScalar (NInt 1));
      ($"DEFAULT", UKScalar (NInt 1));
      ($"DEPENDENCIES", UKScalar (NStr $"+"));
      ($"DEPENDS", UKScalar (NStr $"+"));
      ($"DESCRIPTION", UKScalar (NStr $"+"));
      ($"DISPLAY_NAME", UKScalar (NStr $"+"));
      ($"LICENSES", UKScalar (NStr $"+"));
      ($"NAME", UKScalar (NInt 1));
      ($"PRIORITY", UKScalar (NInt 1));
      ($"RELEASE_DATE", UKScalar (NInt 1));
      ($"REPLACES", UKScalar (NStr $"+"));
      ($"SCRIPT", UKScalar (NInt 1));
      ($"SORTING_PRIORITY", UKScalar (NInt 1));
      ($"TRANSLATIONS", UKScalar (NStr $"+"));
      ($"UPDATE_TEXT", UKScalar (NInt 1));
      ($"USER_INTERFACES", UKScalar (NStr $"+"));
      ($"VERSION", UKScalar (NInt 1))] None None));
  ($"cpack_ifw_configure_component_group", (USpec (UDict (PDict false (Some (NStr $"1+")) None None (Some [$"VIRTUAL"; $"FORCED_INSTALLATION"; $"REQUIRES_ADMIN_RIGHTS"]) None None false)) nil [($"AUTO_DEPEND_ON", UKScalar (NStr $"+"));
      ($"CHECKABLE", UKScalar (NInt 1));
      ($"DEFAULT", UKScalar (NInt 1));
      ($"DEPENDENCIES", UKScalar (NStr $"+"));
      ($"DEPENDS", UKScalar (NStr $"+"));
      ($"DESCRIPTION", UKScalar (NStr $"+"));
      ($"DISPLAY_NAME", UKScalar (NStr $"+"));
      ($"LICENSES", UKScalar (NStr $"+"));
      ($"NAME", UKScalar (NInt 1));
      ($"PRIORITY", UKScalar (NInt 1));
      ($"RELEASE_DATE", UKScalar (NInt 1));
      ($"REPLACES", UKScalar (NStr $"+"));
      ($"SCRIPT", UKScalar (NInt 1));
      ($"SORTING_PRIORITY", UKScalar (NInt 1));
      ($"TRANSLATIONS", UKScalar (NStr $"+"));
      ($"UPDATE_TEXT", UKScalar (NInt 1));
      ($"USER_INTERFACES", UKScalar (NStr $"+"));
      ($"VERSION", UKScalar (NInt 1))] None None));
  ($"cpack_ifw_configure_file", (USpec (UDict (PDict false (Some (NInt 2)) None None None None None false)) nil nil None None));
  ($"cpack_ifw_update_repository", (USpec (UDict (PDict false (Some (NStr $"1+")) None None (Some [$"ADD"; $"REMOVE"; $"REPLACE"; $"DISABLED"]) None None false)) nil [($"DISPLAY_NAME", UKScalar (NInt 1));
      ($"NEW_URL", UKScalar (NInt 1));
      ($"OLD_URL", UKScalar (NInt 1));
      ($"PASSWORD", UKScalar (NInt 1));
      ($"URL", UKScalar (NInt 1));
      ($"USERNAME", UKScalar (NInt 1))] None None));
  ($"cpack_optional_append", (USpec (UDict (PDict false (Some (NInt 3)) None None None None None false)) nil nil None None));
  ($"cpack_rpm_debugsymbol_check", (USpec (UDict (PDict false (Some (NInt 2)) None None None None None false)) nil nil None None));
  ($"cpack_rpm_generate_package", (USpec (UDict (PDict false (Some (NInt 0)) None None None None None false)) nil nil None None));
  ($"cpack_rpm_prepare_content_list", (USpec (UDict (PDict false (Some (NInt 0)) None None None None None false)) nil nil None None));
  ($"cpack_rpm_prepare_install_files", (USpec (UDict (PDict false (Some (NInt 4)) None None None None None false)) nil nil None None));
  ($"cpack_rpm_prepare_relocation_paths", (USpec (UDict (PDict false (Some (NInt 0)) None None None None None false)) nil nil None None));
  ($"cpack_rpm_symlink_add_for_relocation_script", (USpec (UDict (PDict false (Some (NInt 5)) None None None None None false)) nil nil None None));
  ($"cpack_rpm_symlink_create_relocation_script", (USpec (UDict (PDict false (Some (NInt 1)) None None None None None false)) nil nil None None));
  ($"cpack_rpm_symlink_get_relocation_prefixes", (USpec (UDict (PDict false (Some (NInt 3)) None None None None None false)) nil nil None None));
  ($"cpack_rpm_variable_fallback", (USpec (UDict (PDict false (Some (NInt 1)) None None None None None false)) nil nil None None));
  ($"cpack_set_if_not_set", (USpec (UDict (PDict false (Some (NInt 2)) None None None None None false)) nil nil None None));
  ($"create_javadoc", (USpec (UDict (PDict false (Some (NInt 1)) None None None None None false)) nil nil None None));
  ($"create_javah", (USpec (UDict (PDict false (Some (NStr $"*")) None None None None None false)) nil [($"CLASSES", UKScalar (NStr $"+"));
      ($"CLASSPATH", UKScalar (NStr $"+"));
      ($"DEPENDS", UKScalar (NStr $"+"));
      ($"GENERATED_FILES", UKScalar (NInt 1));
      ($"OUTPUT_DIR", UKScalar (NInt 1));
      ($"OUTPUT_NAME", UKScalar (NInt 1));
      ($"TARGET", UKScalar (NInt 1))] None None));
  ($"crt_version", (USpec (UDict (PDict false (Some (NInt 2)) None None None None None false)) nil nil None None));
  ($"csharp_get_dependentupon_name", (USpec (UDict (PDict false (Some (NInt 2)) None None None None None false)) nil nil None None));
  ($"csharp_get_filename_key_base", (USpec (UDict (PDict false (Some (NInt 2)) None None None None None false)) nil nil None None));
  ($"csharp_get_filename_keys", (USpec (UDict (PDict false (Some (NInt 1)) None None None None None false)) nil nil None None));
  ($"csharp_set_designer_cs_properties", (USpec (UDict (PDict false (Some (NInt 0)) None None None None None false)) nil nil None None));
  ($"csharp_set_windows_forms_properties", (USpec (UDict (PDict false (Some (NInt 0)) None None None None None false)) nil nil None None));
  ($"csharp_set_xaml_cs_properties", (USpec (UDict (PDict false (Some (NInt 0)) None None None None None false)) nil nil None None));
  ($"ctest_coverage_collect_gcov", (USpec (UDict (PDict false (Some (NStr $"*")) None None (Some [$"QUIET"; $"GLOB"; $"DELETE"]) None None false)) nil [($"BUILD", UKScalar (NInt 1));
      ($"GCOV_COMMAND", UKScalar (NInt 1));
      ($"GCOV_OPTIONS", UKScalar (NStr $"+"));
      ($"SOURCE", UKScalar (NInt 1));
      ($"TARBALL", UKScalar (NInt 1))] None None));
  ($"cuda_add_cublas_to_target", (USpec (UDict (PDict false (Some (NInt 1)) None None None None None false)) nil nil None None));
  ($"cuda_add_cuda_include_once", (USpec (UDict (PDict false (Some (NInt 0)) None None None None None false)) nil nil None None));
  ($"cuda_add_cufft_to_target", (USpec (UDict (PDict false (Some (NInt 1)) None None None None None false)) nil nil None None));
  ($"cuda_add_executable", (USpec (UDict (PDict false (Some (NInt 1)) None None None None None false)) nil nil None None));
  ($"cuda_add_library", (USpec (UDict (PDict false (Some (NInt 1)) None None None None None false)) nil nil None None));
  ($"cuda_build_clean_target", (USpec (UDict (PDict false (Some (NInt 0)) None None None None None false)) nil nil None None));
  ($"cuda_build_shared_library", (USpec (UDict (PDict false (Some (NInt 1)) None None None None None false)) nil nil None None));
  ($"cuda_compile", (USpec (UDict (PDict false (Some (NInt 1)) None None None None None false)) nil nil None None));
  ($"cuda_compile_base", (USpec (UDict (PDict false (Some (NInt 3)) None None None None None false)) nil nil None None));
  ($"cuda_compile_cubin", (USpec (UDict (PDict false (Some (NInt 1)) None None None None None false)) nil nil None None));
  ($"cuda_compile_fatbin", (USpec (UDict (PDict false (Some (NInt 1)) None None None None None false)) nil nil None None));
  ($"cuda_compile_ptx", (USpec (UDict (PDict false (Some (NInt 1)) None None None None None false)) nil nil None None));
  ($"cuda_compute_build_path", (USpec (UDict (PDict false (Some (NInt 2)) None None None None None false)) nil nil None None));
  ($"cuda_compute_separable_compilation_object_file_name", (USpec (UDict (PDict false (Some (NInt 3)) None None None None None false)) nil nil None None));
  ($"cuda_find_helper_file", (USpec (UDict (PDict false (Some (NInt 2)) None None None None None false)) nil nil None None));
  ($"cuda_find_host_program", (USpec (UDict (PDict false (Some (NInt 0)) None None None None None false)) nil nil None None));
  ($"cuda_find_library_local_first", (USpec (UDict (PDict false (Some (NInt 3)) None None None None None false)) nil nil None None));
  ($"cuda_find_library_local_first_with_path_ext", (USpec (UDict (PDict false (Some (NInt 4)) None None None None None false)) nil nil None None));
  ($"cuda_get_sources_and_options", (USpec (UDict (PDict false (Some (NInt 3)) None None None None None false)) nil nil None None));
  ($"cuda_include_directories", (USpec (UDict (PDict false (Some (NInt 0)) None None None None None false)) nil nil None None));
  ($"cuda_include_nvcc_dependencies", (USpec (UDict (PDict false (Some (NInt 1)) None None None None None false)) nil nil None None));
  ($"cuda_link_separable_compilation_objects", (USpec (UDict (PDict false (Some (NInt 4)) None None None None None false)) nil nil None None));
  ($"cuda_parse_nvcc_options", (USpec (UDict (PDict false (Some (NInt 1)) None None None None None false)) nil nil None None));
  ($"cuda_unset_include_and_libraries", (USpec (UDict (PDict false (Some (NInt 0)) None None None None None false)) nil nil None None));
  ($"cuda_wrap_srcs", (USpec (UDict (PDict false (Some (NInt 3)) None None None None None false)) nil nil None None));
  ($"cxxtest_add_test", (USpec (UDict (PDict false (Some (NInt 2)) None None None None None false)) nil nil None None));
  ($"dbg_msg", (USpec (UDict (PDict false (Some (NInt 1)) None None None None None false)) nil nil None None));
  ($"dbg_msg_v", (USpec (UDict (PDict false (Some (NInt 1)) None None None None None false)) nil nil None None));
  ($"determinevsservicepack", (USpec (UDict (PDict false (Some (NInt 1)) None None None None None false)) nil nil (Some $"DetermineVSServicePack") None));
  ($"doxygen_add_docs", (USpec (UDict (PDict false (Some (NStr $"1+")) None None None None None false)) nil [($"COMMENT", UKScalar (NInt 1));
      ($"WORKING_DIRECTORY", UKScalar (NInt 1))] None None));
  ($"doxygen_list_to_quoted_strings", (USpec (UDict (PDict false (Some (NInt 1)) None None None None None false)) nil nil None None));
  ($"doxygen_quote_value", (USpec (UDict (PDict false (Some (NInt 1)) None None None None None false)) nil nil None None));
  ($"dump_file", (USpec (UDict (PDict false (Some (NInt 1)) None None None None None false)) nil nil None None));
  ($"ecos_add_executable", (USpec (UDict (PDict false (Some (NInt 1)) None None None None None false)) nil nil None None));
  ($"ecos_add_include_directories", (USpec (UDict (PDict false (Some (NInt 0)) None None None None None false)) nil nil None None));
  ($"ecos_add_target_lib", (USpec (UDict (PDict false (Some (NInt 0)) None None None None None false)) nil nil None None));
  ($"ecos_adjust_directory", (USpec (UDict (PDict false (Some (NInt 1)) None None None None None false)) nil nil None None));
  ($"ecos_use_arm_elf_tools", (USpec (UDict (PDict false (Some (NInt 0)) None None None None None false)) nil nil None None));
  ($"ecos_use_i386_elf_tools", (USpec (UDict (PDict false (Some (NInt 0)) None None None None None false)) nil nil None None));
  ($"ecos_use_ppc_eabi_tools", (USpec (UDict (PDict false (Some (NInt 0)) None None None None None false)) nil nil None None));
  ($"enable_language", (USpec (UDict (PDict false (Some (NInt 0)) None None None None None false)) nil nil None None));
  ($"export_jars", (USpec (UDict (PDict false (Some (NStr $"*")) None None None None None false)) nil [($"FILE", UKScalar (NInt 1));
      ($"NAMESPACE", UKScalar (NInt 1));
      ($"TARGETS", UKScalar (NStr $"+"))] None None));
  ($"externaldata_add_target", (USpec (UDict (PDict false (Some (NInt 1)) None None None None None false)) nil nil (Some $"ExternalData_add_target") None));
  ($"externaldata_add_test", (USpec (UDict (PDict false (Some (NInt 1)) None None None None None false)) nil nil (Some $"ExternalData_add_test") None));
  ($"externaldata_expand_arguments", (USpec (UDict (PDict false (Some (NInt 2)) None None None None None false)) nil nil (Some $"ExternalData_expand_arguments") None));
  ($"extract_matlab_versions_from_registry_brute_force", (USpec (UDict (PDict false (Some (NInt 1)) None None None None None false)) nil nil None None));
  ($"extract_so_info", (USpec (UDict (PDict false (Some (NInt 3)) None None None None None false)) nil nil None None));
  ($"feature_summary", (USpec (UDict (PDict false (Some (NStr $"*")) None None (Some [$"APPEND"; $"INCLUDE_QUIET_PACKAGES"; $"FATAL_ON_MISSING_REQUIRED_PACKAGES"; $"QUIET_ON_EMPTY"; $"DEFAULT_DESCRIPTION"]) None None false)) nil [($"DESCRIPTION", UKScalar (NInt 1));
      ($"FILENAME", UKScalar (NInt 1));
      ($"VAR", UKScalar (NInt 1));
      ($"WHAT", UKScalar (NStr $"+"))] None None));
  ($"find_cuda_helper_libs", (USpec (UDict (PDict false (Some (NInt 1)) None None None None None false)) nil nil None None));
  ($"find_dependency", (USpec (UDict (PDict false (Some (NInt 1)) None None None None None false)) nil nil None None));
  ($"find_imagemagick_api", (USpec (UDict (PDict false (Some (NInt 2)) None None None None None false)) nil nil None None));
  ($"find_imagemagick_exe", (USpec (UDict (PDict false (Some (NInt 1)) None None None None None false)) nil nil None None));
  ($"find_jar", (USpec (UDict (PDict false (Some (NInt 1)) None None None None None false)) nil nil None None));
  ($"find_library_local_first", (USpec (UDict (PDict false (Some (NInt 3)) None None None None None false)) nil nil None None));
  ($"find_package_handle_standard_args", (USpec (UDict (PDict false (Some (NStr $"2+")) None None (Some [$"CONFIG_MODE"; $"HANDLE_COMPONENTS"]) None None false)) nil [($"FAIL_MESSAGE", UKScalar (NInt 1));
      ($"FOUND_VAR", UKScalar (NInt 1));
      ($"REQUIRED_VARS", UKScalar (NStr $"+"));
      ($"VERSION_VAR", UKScalar (NInt 1))] None None));
  ($"find_package_message", (USpec (UDict (PDict false (Some (NInt 3)) None None None None None false)) nil nil None None));
  ($"fixup_bundle", (USpec (UDict (PDict false (Some (NStr $"3+")) None None None None None false)) nil [($"IGNORE_ITEM", UKScalar (NStr $"+"))] None None));
  ($"fixup_bundle_item", (USpec (UDict (PDict false (Some (NInt 3)) None None None None None false)) nil nil None None));
  ($"fixup_qt4_executable", (USpec (UDict (PDict false (Some (NInt 1)) None None None None None false)) nil nil None None));
  ($"flex_target", (USpec (UDict (PDict false (Some (NStr $"3+")) None None None None None false)) nil [($"COMPILE_FLAGS", UKScalar (NInt 1));
      ($"DEFINES_FILE", UKScalar (NInt 1))] None None));
  ($"fortrancinterface_header", (USpec (UDict (PDict false (Some (NInt 1)) None None None None None false)) nil nil (Some $"FortranCInterface_HEADER") None));
  ($"fortrancinterface_verify", (USpec (UDict (PDict false (Some (NInt 0)) None None None None None false)) nil nil (Some $"FortranCInterface_VERIFY") None));
  ($"from_hex", (USpec (UDict (PDict false (Some (NInt 2)) None None None None None false)) nil nil None None));
  ($"generate_export_header", (USpec (UDict (PDict false (Some (NInt 1)) None None None None None false)) nil nil None None));
  ($"get_bundle_all_executables", (USpec (UDict (PDict false (Some (NInt 2)) None None None None None false)) nil nil None None));
  ($"get_bundle_and_executable", (USpec (UDict (PDict false (Some (NInt 4)) None None None None None false)) nil nil None None));
  ($"get_bundle_keys", (USpec (UDict (PDict false (Some (NStr $"4+")) None None None None None false)) nil [($"IGNORE_ITEM", UKScalar (NStr $"+"))] None None));
  ($"get_bundle_main_executable", (USpec (UDict (PDict false (Some (NInt 2)) None None None None None false)) nil nil None None));
  ($"get_component_package_name", (USpec (UDict (PDict false (Some (NInt 2)) None None None None None false)) nil nil None None));
  ($"get_dotapp_dir", (USpec (UDict (PDict false (Some (NInt 2)) None None None None None false)) nil nil None None));
  ($"get_item_key", (USpec (UDict (PDict false (Some (NInt 2)) None None None None None false)) nil nil None None));
  ($"get_item_rpaths", (USpec (UDict (PDict false (Some (NInt 2)) None None None None None false)) nil nil None None));
  ($"get_prerequisites", (USpec (UDict (PDict false (Some (NInt 6)) None None None None None false)) nil nil None None));
  ($"get_unix_permissions_octal_notation", (USpec (UDict (PDict false (Some (NInt 2)) None None None None None false)) nil nil None None));
  ($"get_vs_version_string", (USpec (UDict (PDict false (Some (NInt 2)) None None None None None false)) nil nil None None));
  ($"getdefaultwindowsprefixbase", (USpec (UDict (PDict false (Some (NInt 1)) None None None None None false)) nil nil (Some $"GetDefaultWindowsPrefixBase") None));
  ($"gettext_create_translations", (USpec (UDict (PDict false (Some (NInt 2)) None None None None None false)) nil nil None None));
  ($"gettext_process_po_files", (USpec (UDict (PDict false (Some (NStr $"1+")) None None (Some [$"ALL"]) None None false)) nil [($"INSTALL_DESTINATION", UKScalar (NInt 1));
      ($"PO_FILES", UKScalar (NStr $"+"))] None None));
  ($"gettext_process_pot_file", (USpec (UDict (PDict false (Some (NStr $"1+")) None None (Some [$"ALL"]) None None false)) nil [($"INSTALL_DESTINATION", UKScalar (NInt 1));
      ($"LANGUAGES", UKScalar (NStr $"+"))] None None));
  ($"gnuinstalldirs_get_absolute_install_dir", (USpec (UDict (PDict false (Some (NInt 2)) None None None None None false)) nil nil (Some $"GNUInstallDirs_get_absolute_install_dir") None));
  ($"gp_append_unique", (USpec (UDict (PDict false (Some (NInt 2)) None None None None None false)) nil nil None None));
  ($"gp_file_type", (USpec (UDict (PDict false (Some (NInt 3)) None None None None None false)) nil nil None None));
  ($"gp_item_default_embedded_path", (USpec (UDict (PDict false (Some (NInt 2)) None None None None None false)) nil nil None None));
  ($"gp_resolve_item", (USpec (UDict (PDict false (Some (NInt 5)) None None None None None false)) nil nil None None));
  ($"gp_resolved_file_type", (USpec (UDict (PDict false (Some (NInt 5)) None None None None None false)) nil nil None None));
  ($"gtest_add_tests", (USpec (UDict (PDict false (Some (NStr $"*")) None None (Some [$"SKIP_DEPENDENCY"]) None None false)) nil [($"EXTRA_ARGS", UKScalar (NStr $"+"));
      ($"SOURCES", UKScalar (NStr $"+"));
      ($"TARGET", UKScalar (NInt 1));
      ($"TEST_LIST", UKScalar (NInt 1));
      ($"TEST_PREFIX", UKScalar (NInt 1));
      ($"TEST_SUFFIX", UKScalar (NInt 1));
      ($"WORKING_DIRECTORY", UKScalar (NInt 1))] None None));
  ($"gtest_discover_tests", (USpec (UDict (PDict false (Some (NStr $"1+")) None None (Some [$"NO_PRETTY_TYPES"; $"NO_PRETTY_VALUES"]) None None false)) nil [($"EXTRA_ARGS", UKScalar (NStr $"+"));
      ($"PROPERTIES", UKScalar (NStr $"+"));
      ($"TEST_LIST", UKScalar (NInt 1));
      ($"TEST_PREFIX", UKScalar (NInt 1));
      ($"TEST_SUFFIX", UKScalar (NInt 1));
      ($"TIMEOUT", UKScalar (NInt 1));
      ($"WORKING_DIRECTORY", UKScalar (NInt 1))] None None));
  ($"hg_wc_info", (USpec (UDict (PDict false (Some (NInt 2)) None None None None None false)) nil nil None None));
  ($"install_jar", (USpec (UDict (PDict false (Some (NStr $"1+")) None None None None None false)) nil [($"COMPONENT", UKScalar (NInt 1));
      ($"DESTINATION", UKScalar (NInt 1))] None None));
  ($"install_jar_exports", (USpec (UDict (PDict false (Some (NStr $"*")) None None None None None false)) nil [($"COMPONENT", UKScalar (NInt 1));
      ($"DESTINATION", UKScalar (NInt 1));
      ($"FILE", UKScalar (NInt 1));
      ($"NAMESPACE", UKScalar (NInt 1));
      ($"TARGETS", UKScalar (NStr $"+"))] None None));
  ($"install_jni_symlink", (USpec (UDict (PDict false (Some (NStr $"1+")) None None None None None false)) nil [($"COMPONENT", UKScalar (NInt 1));
      ($"DESTINATION", UKScalar (NInt 1))] None None));
  ($"install_qt4_executable", (USpec (UDict (PDict false (Some (NInt 1)) None None None None None false)) nil nil None None));
  ($"install_qt4_plugin", (USpec (UDict (PDict false (Some (NInt 4)) None None None None None false)) nil nil None None));
  ($"install_qt4_plugin_path", (USpec (UDict (PDict false (Some (NInt 4)) None None None None None false)) nil nil None None));
  ($"ios_install_combined", (USpec (UDict (PDict false (Some (NInt 2)) None None None None None false)) nil nil None None));
  ($"is_file_executable", (USpec (UDict (PDict false (Some (NInt 2)) None None None None None false)) nil nil None None));
  ($"java_append_library_directories", (USpec (UDict (PDict false (Some (NInt 1)) None None None None None false)) nil nil None None));
  ($"kde3_add_dcop_skels", (USpec (UDict (PDict false (Some (NInt 1)) None None None None None false)) nil nil None None));
  ($"kde3_add_dcop_stubs", (USpec (UDict (PDict false (Some (NInt 1)) None None None None None false)) nil nil None None));
  ($"kde3_add_executable", (USpec (UDict (PDict false (Some (NInt 1)) None None None None None false)) nil nil None None));
  ($"kde3_add_kcfg_files", (USpec (UDict (PDict false (Some (NInt 1)) None None None None None false)) nil nil None None));
  ($"kde3_add_kdeinit_executable", (USpec (UDict (PDict false (Some (NInt 1)) None None None None None false)) nil nil None None));
  ($"kde3_add_kpart", (USpec (UDict (PDict false (Some (NInt 2)) None None None None None false)) nil nil None None));
  ($"kde3_add_moc_files", (USpec (UDict (PDict false (Some (NInt 1)) None None None None None false)) nil nil None None));
  ($"kde3_add_ui_files", (USpec (UDict (PDict false (Some (NInt 1)) None None None None None false)) nil nil None None));
  ($"kde3_automoc", (USpec (UDict (PDict false (Some (NInt 0)) None None None None None false)) nil nil None None));
  ($"kde3_create_final_file", (USpec (UDict (PDict false (Some (NInt 1)) None None None None None false)) nil nil None None));
  ($"kde3_install_icons", (USpec (UDict (PDict false (Some (NInt 1)) None None None None None false)) nil nil None None));
  ($"kde3_install_libtool_file", (USpec (UDict (PDict false (Some (NInt 1)) None None None None None false)) nil nil None None));
  ($"kde3_print_results", (USpec (UDict (PDict false (Some (NInt 0)) None None None None None false)) nil nil None None));
  ($"link_resolved_item_into_bundle", (USpec (UDict (PDict false (Some (NInt 2)) None None None None None false)) nil nil None None));
  ($"list_prerequisites", (USpec (UDict (PDict false (Some (NInt 1)) None None None None None false)) nil nil None None));
  ($"list_prerequisites_by_glob", (USpec (UDict (PDict false (Some (NInt 2)) None None None None None false)) nil nil None None));
  ($"macro_add_file_dependencies", (USpec (UDict (PDict false (Some (NInt 1)) None None None None None false)) nil nil None None));
  ($"matlab_add_mex", (USpec (UDict (PDict false (Some (NStr $"*")) None None (Some [$"EXECUTABLE"; $"MODULE"; $"SHARED"]) None None false)) nil [($"DOCUMENTATION", UKScalar (NInt 1));
      ($"LINK_TO", UKScalar (NStr $"+"));
      ($"NAME", UKScalar (NInt 1));
      ($"OUTPUT_NAME", UKScalar (NInt 1));
      ($"SRC", UKScalar (NStr $"+"))] None None));
  ($"matlab_add_unit_test", (USpec (UDict (PDict false (Some (NStr $"*")) None None (Some [$"0"]) None None false)) nil [($"NO_UNITTEST_FRAMEWORK", UKScalar (NStr $"+"));
      ($"_MATLAB_UNITTEST_PREFIX", UKScalar (NInt 1))] None None));
  ($"matlab_extract_all_installed_versions_from_registry", (USpec (UDict (PDict false (Some (NInt 2)) None None None None None false)) nil nil None None));
  ($"matlab_get_all_valid_matlab_roots_from_registry", (USpec (UDict (PDict false (Some (NInt 2)) None None None None None false)) nil nil None None));
  ($"matlab_get_mex_suffix", (USpec (UDict (PDict false (Some (NInt 2)) None None None None None false)) nil nil None None));
  ($"matlab_get_release_name_from_version", (USpec (UDict (PDict false (Some (NInt 2)) None None None None None false)) nil nil None None));
  ($"matlab_get_supported_releases", (USpec (UDict (PDict false (Some (NInt 1)) None None None None None false)) nil nil None None));
  ($"matlab_get_supported_versions", (USpec (UDict (PDict false (Some (NInt 1)) None None None None None false)) nil nil None None));
  ($"matlab_get_version_from_matlab_run", (USpec (UDict (PDict false (Some (NInt 2)) None None None None None false)) nil nil None None));
  ($"matlab_get_version_from_release_name", (USpec (UDict (PDict false (Some (NInt 2)) None None None None None false)) nil nil None None));
  ($"mpi_search_mpi_prefix_folder", (USpec (UDict (PDict false (Some (NInt 1)) None None None None None false)) nil nil (Some $"MPI_search_mpi_prefix_folder") None));
  ($"msg", (USpec (UDict (PDict false (Some (NInt 1)) None None None None None false)) nil nil None None));
  ($"osg_find_library", (USpec (UDict (PDict false (Some (NInt 2)) None None None None None false)) nil nil None None));
  ($"osg_find_path", (USpec (UDict (PDict false (Some (NInt 2)) None None None None None false)) nil nil None None));
  ($"osg_mark_as_advanced", (USpec (UDict (PDict false (Some (NInt 1)) None None None None None false)) nil nil None None));
  ($"perl_adjust_darwin_lib_variable", (USpec (UDict (PDict false (Some (NInt 1)) None None None None None false)) nil nil None None));
  ($"pkg_check_modules", (USpec (UDict (PDict false (Some (NInt 2)) None None None None None false)) nil nil None None));
  ($"pkg_get_variable", (USpec (UDict (PDict false (Some (NInt 3)) None None None None None false)) nil nil None None));
  ($"pkg_search_module", (USpec (UDict (PDict false (Some (NInt 2)) None None None None None false)) nil nil None None));
  ($"pkgconfig", (USpec (UDict (PDict false (Some (NInt 5)) None None None None None false)) nil nil None None));
  ($"print_disabled_features", (USpec (UDict (PDict false (Some (NInt 0)) None None None None None false)) nil nil None None));
  ($"print_enabled_features", (USpec (UDict (PDict false (Some (NInt 0)) None None None None None false)) nil nil None None));
  ($"printtestcompilerstatus", (USpec (UDict (PDict false (Some (NInt 2)) None None None None None false)) nil nil (Some $"PrintTestCompilerStatus") None));
  ($"processorcount", (USpec (UDict (PDict false (Some (NInt 1)) None None None None None false)) nil nil (Some $"ProcessorCount") None));
  ($"protobuf_generate_cpp", (USpec (UDict (PDict false (Some (NStr $"2+")) None None None None None false)) nil [($"DESCRIPTORS", UKScalar (NInt 1));
      ($"EXPORT_MACRO", UKScalar (NInt 1))] None None));
  ($"protobuf_generate_python", (USpec (UDict (PDict false (Some (NInt 1)) None None None None None false)) nil nil None None));
  ($"python_add_module", (USpec (UDict (PDict false (Some (NInt 1)) None None None None None false)) nil nil None None));
  ($"python_write_modules_header", (USpec (UDict (PDict false (Some (NInt 1)) None None None None None false)) nil nil None None));
  ($"qt4_add_dbus_adaptor", (USpec (UDict (PDict false (Some (NInt 4)) None None None None None false)) nil nil None None));
  ($"qt4_add_dbus_interface", (USpec (UDict (PDict false (Some (NInt 3)) None None None None None false)) nil nil None None));
  ($"qt4_add_dbus_interfaces", (USpec (UDict (PDict false (Some (NInt 1)) None None None None None false)) nil nil None None));
  ($"qt4_add_resources", (USpec (UDict (PDict false (Some (NInt 1)) None None None None None false)) nil nil None None));
  ($"qt4_add_translation", (USpec (UDict (PDict false (Some (NInt 1)) None None None None None false)) nil nil None None));
  ($"qt4_automoc", (USpec (UDict (PDict false (Some (NInt 0)) None None None None None false)) nil nil None None));
  ($"qt4_create_moc_command", (USpec (UDict (PDict false (Some (NInt 5)) None None None None None false)) nil nil None None));
  ($"qt4_create_translation", (USpec (UDict (PDict false (Some (NInt 1)) None None None None None false)) nil nil None None));
  ($"qt4_extract_options", (USpec (UDict (PDict false (Some (NInt 3)) None None None None None false)) nil nil None None));
  ($"qt4_generate_dbus_interface", (USpec (UDict (PDict false (Some (NInt 1)) None None None None None false)) nil nil None None));
  ($"qt4_generate_moc", (USpec (UDict (PDict false (Some (NInt 2)) None None None None None false)) nil nil None None));
  ($"qt4_get_moc_flags", (USpec (UDict (PDict false (Some (NInt 1)) None None None None None false)) nil nil None None));
  ($"qt4_make_output_file", (USpec (UDict (PDict false (Some (NInt 4)) None None None None None false)) nil nil None None));
  ($"qt4_use_modules", (USpec (UDict (PDict false (Some (NInt 2)) None None None None None false)) nil nil None None));
  ($"qt4_wrap_cpp", (USpec (UDict (PDict false (Some (NInt 1)) None None None None None false)) nil nil None None));
  ($"qt4_wrap_ui", (USpec (UDict (PDict false (Some (NInt 1)) None None None None None false)) nil nil None None));
  ($"resolve_qt4_paths", (USpec (UDict (PDict false (Some (NInt 1)) None None None None None false)) nil nil None None));
  ($"rti_message_quietly", (USpec (UDict (PDict false (Some (NInt 3)) None None None None None false)) nil nil None None));
  ($"select_library_configurations", (USpec (UDict (PDict false (Some (NInt 1)) None None None None None false)) nil nil None None));
  ($"set_bundle_key_values", (USpec (UDict (PDict false (Some (NInt 6)) None None None None None false)) nil nil None None));
  ($"set_compile_flags_var", (USpec (UDict (PDict false (Some (NInt 1)) None None None None None false)) nil nil None None));
  ($"set_feature_info", (USpec (UDict (PDict false (Some (NInt 0)) None None None None None false)) nil nil None None));
  ($"set_if_not_set", (USpec (UDict (PDict false (Some (NInt 2)) None None None None None false)) nil nil None None));
  ($"set_if_set", (USpec (UDict (PDict false (Some (NInt 2)) None None None None None false)) nil nil None None));
  ($"set_if_set_and_not_set", (USpec (UDict (PDict false (Some (NInt 2)) None None None None None false)) nil nil None None));
  ($"set_link_flags_var", (USpec (UDict (PDict false (Some (NInt 1)) None None None None None false)) nil nil None None));
  ($"set_package_info", (USpec (UDict (PDict false (Some (NInt 2)) None None None None None false)) nil nil None None));
  ($"set_package_properties", (USpec (UDict (PDict false (Some (NStr $"2+")) None None None None None false)) nil [($"DESCRIPTION", UKScalar (NInt 1));
      ($"PURPOSE", UKScalar (NInt 1));
      ($"TYPE", UKScalar (NInt 1));
      ($"URL", UKScalar (NInt 1))] None None));
  ($"source_files", (USpec (UDict (PDict false (Some (NInt 0)) None None None None None false)) nil nil None None));
  ($"squish_add_test", (USpec (UDict (PDict false (Some (NInt 0)) None None None None None false)) nil nil None None));
  ($"squish_v3_add_test", (USpec (UDict (PDict false (Some (NInt 5)) None None None None None false)) nil nil None None));
  ($"squish_v4_add_test", (USpec (UDict (PDict false (Some (NStr $"1+")) None None None None None false)) nil [($"AUT", UKScalar (NInt 1));
      ($"POST_COMMAND", UKScalar (NInt 1));
      ($"PRE_COMMAND", UKScalar (NInt 1));
      ($"SETTINGSGROUP", UKScalar (NInt 1));
      ($"SUITE", UKScalar (NInt 1));
      ($"TEST", UKScalar (NInt 1))] None None));
  ($"subversion_wc_info", (USpec (UDict (PDict false (Some (NInt 2)) None None None None None false)) nil nil (Some $"Subversion_WC_INFO") None));
  ($"subversion_wc_log", (USpec (UDict (PDict false (Some (NInt 2)) None None None None None false)) nil nil (Some $"Subversion_WC_LOG") None));
  ($"swig_add_library", (USpec (UDict (PDict false (Some (NStr $"1+")) None None None None None false)) nil [($"LANGUAGE", UKScalar (NInt 1));
      ($"SOURCES", UKScalar (NStr $"+"));
      ($"TYPE", UKScalar (NInt 1))] None None));
  ($"swig_add_module", (USpec (UDict (PDict false (Some (NInt 2)) None None None None None false)) nil nil None None));
  ($"swig_add_source_to_module", (USpec (UDict (PDict false (Some (NInt 3)) None None None None None false)) nil nil None None));
  ($"swig_get_extra_output_files", (USpec (UDict (PDict false (Some (NInt 4)) None None None None None false)) nil nil None None));
  ($"swig_link_libraries", (USpec (UDict (PDict false (Some (NInt 1)) None None None None None false)) nil nil None None));
  ($"swig_module_initialize", (USpec (UDict (PDict false (Some (NInt 2)) None None None None None false)) nil nil None None));
  ($"test_big_endian", (USpec (UDict (PDict false (Some (NInt 1)) None None None None None false)) nil nil None None));
  ($"verify_app", (USpec (UDict (PDict false (Some (NStr $"1+")) None None None None None false)) nil [($"IGNORE_ITEM", UKScalar (NStr $"+"))] None None));
  ($"verify_bundle_prerequisites", (USpec (UDict (PDict false (Some (NStr $"3+")) None None None None None false)) nil [($"IGNORE_ITEM", UKScalar (NStr $"+"))] None None));
  ($"verify_bundle_symlinks", (USpec (UDict (PDict false (Some (NInt 3)) None None None None None false)) nil nil None None));
  ($"write_basic_config_version_file", (USpec (UDict (PDict false (Some (NStr $"1+")) None None None None None false)) nil [($"COMPATIBILITY", UKScalar (NInt 1));
      ($"VERSION", UKScalar (NInt 1))] None None));
  ($"write_basic_package_version_file", (USpec (UDict (PDict false (Some (NInt 0)) None None None None None false)) nil [($"COMPATIBILITY", UKScalar (NInt 1));
      ($"VERSION", UKScalar (NInt 1))] None None));
  ($"write_compiler_detection_header", (USpec (UDict (PDict false (Some (NStr $"4+")) None None (Some [$"ALLOW_UNKNOWN_COMPILERS"; $"ALLOW_UNKNOWN_COMPILER_VERSIONS"]) None None false)) nil [($"COMPILERS", UKScalar (NStr $"+"));
      ($"EPILOG", UKScalar (NInt 1));
      ($"FEATURES", UKScalar (NStr $"+"));
      ($"OUTPUT_DIR", UKScalar (NInt 1));
      ($"OUTPUT_FILES_VAR", UKScalar (NInt 1));
      ($"PROLOG", UKScalar (NInt 1));
      ($"VERSION", UKScalar (NInt 1))] None None));
  ($"write_qt4_conf", (USpec (UDict (PDict false (Some (NInt 2)) None None None None None false)) nil nil None None));
  ($"wx_clear_all_dbg_libs", (USpec (UDict (PDict false (Some (NInt 0)) None None None None None false)) nil nil None None));
  ($"wx_clear_all_libs", (USpec (UDict (PDict false (Some (NInt 1)) None None None None None false)) nil nil None None));
  ($"wx_clear_all_rel_libs", (USpec (UDict (PDict false (Some (NInt 0)) None None None None None false)) nil nil None None));
  ($"wx_clear_lib", (USpec (UDict (PDict false (Some (NInt 1)) None None None None None false)) nil nil None None));
  ($"wx_config_select_get_default", (USpec (UDict (PDict false (Some (NInt 0)) None None None None None false)) nil nil None None));
  ($"wx_config_select_query_bool", (USpec (UDict (PDict false (Some (NInt 2)) None None None None None false)) nil nil None None));
  ($"wx_config_select_set_options", (USpec (UDict (PDict false (Some (NInt 0)) None None None None None false)) nil nil None None));
  ($"wx_find_libs", (USpec (UDict (PDict false (Some (NInt 3)) None None None None None false)) nil nil None None));
  ($"wx_get_dependencies_from_xml", (USpec (UDict (PDict false (Some (NInt 5)) None None None None None false)) nil nil None None));
  ($"wx_get_name_components", (USpec (UDict (PDict false (Some (NInt 4)) None None None None None false)) nil nil None None));
  ($"wx_set_libraries", (USpec (UDict (PDict false (Some (NInt 2)) None None None None None false)) nil nil None None));
  ($"wx_split_arguments_on", (USpec (UDict (PDict false (Some (NInt 3)) None None None None None false)) nil nil None None));
  ($"wxwidgets_add_resources", (USpec (UDict (PDict false (Some (NInt 1)) None None None None None false)) nil nil None None));
  ($"xctest_add_bundle", (USpec (UDict (PDict false (Some (NInt 2)) None None None None None false)) nil nil None None));
  ($"xctest_add_test", (USpec (UDict (PDict false (Some (NInt 2)) None None None None None false)) nil nil None None))
].
