(** * LintDb: the data tables read by cmake-lint *)
From Verif Require Import Base Regex Lex.

(** LINT_DB, cmakelang/lint/lintdb.py 32-267: code and message format *)
Definition lint_db : list (str * str) := [
   ($"C0102", $"Black listed name " ++ [cDQ] ++ $"{:s}" ++ [cDQ]);
   ($"C0103", $"Invalid {:s} name " ++ [cDQ] ++ $"{:s}" ++ [cDQ] ++ $" doesn't match `{:s}`");
   ($"C0111", $"Missing docstring on function or macro declaration");
   ($"C0112", $"Empty docstring on function or macro declaration");
   ($"C0113", $"Missing {:s} in statement which allows it");
   ($"C0114", $"Form descriminator hidden behind variable dereference");
   ($"C0201", $"Consider replacing custom parser logic with cmake_parse_arguments");
   ($"C0202", $"Argument name {:s} differs from existing argument only in case");
   ($"C0301", $"Line too long ({:d}/{:d})");
   ($"C0303", $"Trailing whitespace");
   ($"C0304", $"Final newline missing");
   ($"C0305", $"{:s} newlines between statements");
   ($"C0306", $"Tab-policy violation. Found {:s} but should be {:s}");
   ($"C0307", $"Bad indentation:" ++ [cNL] ++ $"{:s}{:s}" ++ [cNL] ++ $"{:s}^----{}" ++ [cNL]);
   ($"C0321", $"Multiple statements on a single line");
   ($"C0327", $"Wrong line ending ({:s})");
   ($"E0011", $"Unrecognized file option {:s}");
   ($"E0012", $"Bad option value {:s}");
   ($"E0103", $"{:s} outside of loop");
   ($"E0108", $"Duplicate argument name {:s} in function/macro definition");
   ($"E0109", $"Invalid argument name {:s} in function/macro definition");
   ($"E1120", $"Missing required positional argument");
   ($"E1121", $"Too many positional arguments");
   ($"E1122", $"Duplicate keyword argument {:s}");
   ($"E1125", $"Missing required keyword argument {:s}");
   ($"E1126", $"Invalid form descriminator");
   ($"R0911", $"Too many return statements {:d}/{:d}");
   ($"R0912", $"Too many branches {:d}/{:d}");
   ($"R0913", $"Too many named arguments {:d}/{:d}");
   ($"R0914", $"Too many local variables {:d}/{:d}");
   ($"R0915", $"Too many statements {:d}/{:d}");
   ($"W0101", $"Unreachable code");
   ($"W0104", $"Use of deprecated command {:s}");
   ($"W0105", $"{:s} variable '{:s}' which matches a built-in except for case");
   ($"W0106", $"String looks like a variable reference missing an {:s} tag '{:s}'")].

(** PATTERNS, cmakelang/parse/variables.py 10-485, after stripped_patterns
    (488-494): a literal, or a literal, any text and a literal *)
Inductive vpat := VLit (s : str) | VPat (pre post : str).
Definition var_patterns : list vpat := [
  VPat $"" $"_BINARY_DIR";
  VPat $"" $"_SOURCE_DIR";
  VPat $"" $"_VERSION";
  VPat $"" $"_VERSION_MAJOR";
  VPat $"" $"_VERSION_MINOR";
  VPat $"" $"_VERSION_PATCH";
  VPat $"" $"_VERSION_TWEAK";
  VLit $"ANDROID";
  VLit $"APPLE";
  VLit $"BORLAND";
  VLit $"BUILD_SHARED_LIBS";
  VPat $"CMAKE_" $"_POSTFIX";
  VPat $"CMAKE_" $"_ANDROID_TOOLCHAIN_MACHINE";
  VPat $"CMAKE_" $"_ANDROID_TOOLCHAIN_PREFIX";
  VPat $"CMAKE_" $"_ANDROID_TOOLCHAIN_SUFFIX";
  VPat $"CMAKE_" $"_ARCHIVE_APPEND";
  VPat $"CMAKE_" $"_ARCHIVE_CREATE";
  VPat $"CMAKE_" $"_ARCHIVE_FINISH";
  VPat $"CMAKE_" $"_CLANG_TIDY";
  VPat $"CMAKE_" $"_COMPILER";
  VPat $"CMAKE_" $"_COMPILER_ABI";
  VPat $"CMAKE_" $"_COMPILER_AR";
  VPat $"CMAKE_" $"_COMPILER_ARCHITECTURE_ID";
  VPat $"CMAKE_" $"_COMPILER_EXTERNAL_TOOLCHAIN";
  VPat $"CMAKE_" $"_COMPILER_ID";
  VPat $"CMAKE_" $"_COMPILER_LAUNCHER";
  VPat $"CMAKE_" $"_COMPILER_LOADED";
  VPat $"CMAKE_" $"_COMPILER_PREDEFINES_COMMAND";
  VPat $"CMAKE_" $"_COMPILER_RANLIB";
  VPat $"CMAKE_" $"_COMPILER_TARGET";
  VPat $"CMAKE_" $"_COMPILER_VERSION";
  VPat $"CMAKE_" $"_COMPILER_VERSION_INTERNAL";
  VPat $"CMAKE_" $"_COMPILE_OBJECT";
  VPat $"CMAKE_" $"_CPPCHECK";
  VPat $"CMAKE_" $"_CPPLINT";
  VPat $"CMAKE_" $"_CREATE_SHARED_LIBRARY";
  VPat $"CMAKE_" $"_CREATE_SHARED_MODULE";
  VPat $"CMAKE_" $"_CREATE_STATIC_LIBRARY";
  VPat $"CMAKE_" $"_FLAGS";
  VPat $"CMAKE_" $"_FLAGS_DEBUG";
  VPat $"CMAKE_" $"_FLAGS_DEBUG_INIT";
  VPat $"CMAKE_" $"_FLAGS_INIT";
  VPat $"CMAKE_" $"_FLAGS_MINSIZEREL";
  VPat $"CMAKE_" $"_FLAGS_MINSIZEREL_INIT";
  VPat $"CMAKE_" $"_FLAGS_RELEASE";
  VPat $"CMAKE_" $"_FLAGS_RELEASE_INIT";
  VPat $"CMAKE_" $"_FLAGS_RELWITHDEBINFO";
  VPat $"CMAKE_" $"_FLAGS_RELWITHDEBINFO_INIT";
  VPat $"CMAKE_" $"_GHS_KERNEL_FLAGS_DEBUG";
  VPat $"CMAKE_" $"_GHS_KERNEL_FLAGS_MINSIZEREL";
  VPat $"CMAKE_" $"_GHS_KERNEL_FLAGS_RELEASE";
  VPat $"CMAKE_" $"_GHS_KERNEL_FLAGS_RELWITHDEBINFO";
  VPat $"CMAKE_" $"_IGNORE_EXTENSIONS";
  VPat $"CMAKE_" $"_IMPLICIT_INCLUDE_DIRECTORIES";
  VPat $"CMAKE_" $"_IMPLICIT_LINK_DIRECTORIES";
  VPat $"CMAKE_" $"_IMPLICIT_LINK_FRAMEWORK_DIRECTORIES";
  VPat $"CMAKE_" $"_IMPLICIT_LINK_LIBRARIES";
  VPat $"CMAKE_" $"_INCLUDE_WHAT_YOU_USE";
  VPat $"CMAKE_" $"_LIBRARY_ARCHITECTURE";
  VPat $"CMAKE_" $"_LINKER_PREFERENCE";
  VPat $"CMAKE_" $"_LINKER_PREFERENCE_PROPAGATES";
  VPat $"CMAKE_" $"_LINK_EXECUTABLE";
  VPat $"CMAKE_" $"_OUTPUT_EXTENSION";
  VPat $"CMAKE_" $"_PLATFORM_ID";
  VPat $"CMAKE_" $"_SIMULATE_ID";
  VPat $"CMAKE_" $"_SIMULATE_VERSION";
  VPat $"CMAKE_" $"_SIZEOF_DATA_PTR";
  VPat $"CMAKE_" $"_SOURCE_FILE_EXTENSIONS";
  VPat $"CMAKE_" $"_STANDARD_INCLUDE_DIRECTORIES";
  VPat $"CMAKE_" $"_STANDARD_LIBRARIES";
  VPat $"CMAKE_" $"_VISIBILITY_PRESET";
  VLit $"CMAKE_ABSOLUTE_DESTINATION_FILES";
  VLit $"CMAKE_ANDROID_ANT_ADDITIONAL_OPTIONS";
  VLit $"CMAKE_ANDROID_API";
  VLit $"CMAKE_ANDROID_API_MIN";
  VLit $"CMAKE_ANDROID_ARCH";
  VLit $"CMAKE_ANDROID_ARCH_ABI";
  VLit $"CMAKE_ANDROID_ARM_MODE";
  VLit $"CMAKE_ANDROID_ARM_NEON";
  VLit $"CMAKE_ANDROID_ASSETS_DIRECTORIES";
  VLit $"CMAKE_ANDROID_GUI";
  VLit $"CMAKE_ANDROID_JAR_DEPENDENCIES";
  VLit $"CMAKE_ANDROID_JAR_DIRECTORIES";
  VLit $"CMAKE_ANDROID_JAVA_SOURCE_DIR";
  VLit $"CMAKE_ANDROID_NATIVE_LIB_DEPENDENCIES";
  VLit $"CMAKE_ANDROID_NATIVE_LIB_DIRECTORIES";
  VLit $"CMAKE_ANDROID_NDK";
  VLit $"CMAKE_ANDROID_NDK_DEPRECATED_HEADERS";
  VLit $"CMAKE_ANDROID_NDK_TOOLCHAIN_HOST_TAG";
  VLit $"CMAKE_ANDROID_NDK_TOOLCHAIN_VERSION";
  VLit $"CMAKE_ANDROID_PROCESS_MAX";
  VLit $"CMAKE_ANDROID_PROGUARD";
  VLit $"CMAKE_ANDROID_PROGUARD_CONFIG_PATH";
  VLit $"CMAKE_ANDROID_SECURE_PROPS_PATH";
  VLit $"CMAKE_ANDROID_SKIP_ANT_STEP";
  VLit $"CMAKE_ANDROID_STANDALONE_TOOLCHAIN";
  VLit $"CMAKE_ANDROID_STL_TYPE";
  VLit $"CMAKE_APPBUNDLE_PATH";
  VLit $"CMAKE_AR";
  VLit $"CMAKE_ARCHIVE_OUTPUT_DIRECTORY";
  VPat $"CMAKE_ARCHIVE_OUTPUT_DIRECTORY_" $"";
  VLit $"CMAKE_ARGC";
  VLit $"CMAKE_ARGV0";
  VLit $"CMAKE_AUTOMOC";
  VLit $"CMAKE_AUTOMOC_COMPILER_PREDEFINES";
  VLit $"CMAKE_AUTOMOC_DEPEND_FILTERS";
  VLit $"CMAKE_AUTOMOC_MACRO_NAMES";
  VLit $"CMAKE_AUTOMOC_MOC_OPTIONS";
  VLit $"CMAKE_AUTOMOC_RELAXED_MODE";
  VLit $"CMAKE_AUTORCC";
  VLit $"CMAKE_AUTORCC_OPTIONS";
  VLit $"CMAKE_AUTOUIC";
  VLit $"CMAKE_AUTOUIC_OPTIONS";
  VLit $"CMAKE_AUTOUIC_SEARCH_PATHS";
  VLit $"CMAKE_BACKWARDS_COMPATIBILITY";
  VLit $"CMAKE_BINARY_DIR";
  VLit $"CMAKE_BUILD_RPATH";
  VLit $"CMAKE_BUILD_TOOL";
  VLit $"CMAKE_BUILD_TYPE";
  VLit $"CMAKE_BUILD_WITH_INSTALL_NAME_DIR";
  VLit $"CMAKE_BUILD_WITH_INSTALL_RPATH";
  VLit $"CMAKE_CACHEFILE_DIR";
  VLit $"CMAKE_CACHE_MAJOR_VERSION";
  VLit $"CMAKE_CACHE_MINOR_VERSION";
  VLit $"CMAKE_CACHE_PATCH_VERSION";
  VLit $"CMAKE_CFG_INTDIR";
  VLit $"CMAKE_CL_64";
  VLit $"CMAKE_CODEBLOCKS_EXCLUDE_EXTERNAL_FILES";
  VLit $"CMAKE_CODELITE_USE_TARGETS";
  VLit $"CMAKE_COLOR_MAKEFILE";
  VLit $"CMAKE_COMMAND";
  VLit $"CMAKE_COMPILER_2005";
  VLit $"CMAKE_COMPILER_IS_GNUCC";
  VLit $"CMAKE_COMPILER_IS_GNUCXX";
  VLit $"CMAKE_COMPILER_IS_GNUG77";
  VLit $"CMAKE_COMPILE_PDB_OUTPUT_DIRECTORY";
  VPat $"CMAKE_COMPILE_PDB_OUTPUT_DIRECTORY_" $"";
  VLit $"CMAKE_CONFIGURATION_TYPES";
  VLit $"CMAKE_CROSSCOMPILING";
  VLit $"CMAKE_CROSSCOMPILING_EMULATOR";
  VLit $"CMAKE_CTEST_COMMAND";
  VLit $"CMAKE_CUDA_EXTENSIONS";
  VLit $"CMAKE_CUDA_HOST_COMPILER";
  VLit $"CMAKE_CUDA_STANDARD";
  VLit $"CMAKE_CUDA_STANDARD_REQUIRED";
  VLit $"CMAKE_CUDA_TOOLKIT_INCLUDE_DIRECTORIES";
  VLit $"CMAKE_CURRENT_BINARY_DIR";
  VLit $"CMAKE_CURRENT_LIST_DIR";
  VLit $"CMAKE_CURRENT_LIST_FILE";
  VLit $"CMAKE_CURRENT_LIST_LINE";
  VLit $"CMAKE_CURRENT_SOURCE_DIR";
  VLit $"CMAKE_CXX_COMPILE_FEATURES";
  VLit $"CMAKE_CXX_EXTENSIONS";
  VLit $"CMAKE_CXX_STANDARD";
  VLit $"CMAKE_CXX_STANDARD_REQUIRED";
  VLit $"CMAKE_C_COMPILE_FEATURES";
  VLit $"CMAKE_C_EXTENSIONS";
  VLit $"CMAKE_C_STANDARD";
  VLit $"CMAKE_C_STANDARD_REQUIRED";
  VLit $"CMAKE_DEBUG_POSTFIX";
  VLit $"CMAKE_DEBUG_TARGET_PROPERTIES";
  VLit $"CMAKE_DEPENDS_IN_PROJECT_ONLY";
  VLit $"CMAKE_DIRECTORY_LABELS";
  VPat $"CMAKE_DISABLE_FIND_PACKAGE_" $"";
  VLit $"CMAKE_DL_LIBS";
  VLit $"CMAKE_ECLIPSE_GENERATE_LINKED_RESOURCES";
  VLit $"CMAKE_ECLIPSE_GENERATE_SOURCE_PROJECT";
  VLit $"CMAKE_ECLIPSE_MAKE_ARGUMENTS";
  VLit $"CMAKE_ECLIPSE_VERSION";
  VLit $"CMAKE_EDIT_COMMAND";
  VLit $"CMAKE_ENABLE_EXPORTS";
  VLit $"CMAKE_ERROR_DEPRECATED";
  VLit $"CMAKE_ERROR_ON_ABSOLUTE_INSTALL_DESTINATION";
  VLit $"CMAKE_EXECUTABLE_SUFFIX";
  VLit $"CMAKE_EXE_LINKER_FLAGS";
  VPat $"CMAKE_EXE_LINKER_FLAGS_" $"";
  VPat $"CMAKE_EXE_LINKER_FLAGS_" $"_INIT";
  VLit $"CMAKE_EXE_LINKER_FLAGS_INIT";
  VLit $"CMAKE_EXPORT_COMPILE_COMMANDS";
  VLit $"CMAKE_EXPORT_NO_PACKAGE_REGISTRY";
  VLit $"CMAKE_EXTRA_GENERATOR";
  VLit $"CMAKE_EXTRA_SHARED_LIBRARY_SUFFIXES";
  VLit $"CMAKE_FIND_APPBUNDLE";
  VLit $"CMAKE_FIND_FRAMEWORK";
  VLit $"CMAKE_FIND_LIBRARY_CUSTOM_LIB_SUFFIX";
  VLit $"CMAKE_FIND_LIBRARY_PREFIXES";
  VLit $"CMAKE_FIND_LIBRARY_SUFFIXES";
  VLit $"CMAKE_FIND_NO_INSTALL_PREFIX";
  VLit $"CMAKE_FIND_PACKAGE_NAME";
  VLit $"CMAKE_FIND_PACKAGE_NO_PACKAGE_REGISTRY";
  VLit $"CMAKE_FIND_PACKAGE_NO_SYSTEM_PACKAGE_REGISTRY";
  VLit $"CMAKE_FIND_PACKAGE_SORT_DIRECTION";
  VLit $"CMAKE_FIND_PACKAGE_SORT_ORDER";
  VLit $"CMAKE_FIND_PACKAGE_WARN_NO_MODULE";
  VLit $"CMAKE_FIND_ROOT_PATH";
  VLit $"CMAKE_FIND_ROOT_PATH_MODE_INCLUDE";
  VLit $"CMAKE_FIND_ROOT_PATH_MODE_LIBRARY";
  VLit $"CMAKE_FIND_ROOT_PATH_MODE_PACKAGE";
  VLit $"CMAKE_FIND_ROOT_PATH_MODE_PROGRAM";
  VLit $"CMAKE_FRAMEWORK_PATH";
  VLit $"CMAKE_Fortran_FORMAT";
  VLit $"CMAKE_Fortran_MODDIR_DEFAULT";
  VLit $"CMAKE_Fortran_MODDIR_FLAG";
  VLit $"CMAKE_Fortran_MODOUT_FLAG";
  VLit $"CMAKE_Fortran_MODULE_DIRECTORY";
  VLit $"CMAKE_GENERATOR";
  VLit $"CMAKE_GENERATOR_PLATFORM";
  VLit $"CMAKE_GENERATOR_TOOLSET";
  VLit $"CMAKE_GNUtoMS";
  VLit $"CMAKE_HOME_DIRECTORY";
  VLit $"CMAKE_HOST_APPLE";
  VLit $"CMAKE_HOST_SOLARIS";
  VLit $"CMAKE_HOST_SYSTEM";
  VLit $"CMAKE_HOST_SYSTEM_NAME";
  VLit $"CMAKE_HOST_SYSTEM_PROCESSOR";
  VLit $"CMAKE_HOST_SYSTEM_VERSION";
  VLit $"CMAKE_HOST_UNIX";
  VLit $"CMAKE_HOST_WIN32";
  VLit $"CMAKE_IGNORE_PATH";
  VLit $"CMAKE_IMPORT_LIBRARY_PREFIX";
  VLit $"CMAKE_IMPORT_LIBRARY_SUFFIX";
  VLit $"CMAKE_INCLUDE_CURRENT_DIR";
  VLit $"CMAKE_INCLUDE_CURRENT_DIR_IN_INTERFACE";
  VLit $"CMAKE_INCLUDE_DIRECTORIES_BEFORE";
  VLit $"CMAKE_INCLUDE_DIRECTORIES_PROJECT_BEFORE";
  VLit $"CMAKE_INCLUDE_PATH";
  VLit $"CMAKE_INSTALL_DEFAULT_COMPONENT_NAME";
  VLit $"CMAKE_INSTALL_MESSAGE";
  VLit $"CMAKE_INSTALL_NAME_DIR";
  VLit $"CMAKE_INSTALL_PREFIX";
  VLit $"CMAKE_INSTALL_PREFIX_INITIALIZED_TO_DEFAULT";
  VLit $"CMAKE_INSTALL_RPATH";
  VLit $"CMAKE_INSTALL_RPATH_USE_LINK_PATH";
  VLit $"CMAKE_INTERNAL_PLATFORM_ABI";
  VLit $"CMAKE_INTERPROCEDURAL_OPTIMIZATION";
  VPat $"CMAKE_INTERPROCEDURAL_OPTIMIZATION_" $"";
  VLit $"CMAKE_IOS_INSTALL_COMBINED";
  VLit $"CMAKE_JOB_POOL_COMPILE";
  VLit $"CMAKE_JOB_POOL_LINK";
  VLit $"CMAKE_LIBRARY_ARCHITECTURE";
  VLit $"CMAKE_LIBRARY_ARCHITECTURE_REGEX";
  VLit $"CMAKE_LIBRARY_OUTPUT_DIRECTORY";
  VPat $"CMAKE_LIBRARY_OUTPUT_DIRECTORY_" $"";
  VLit $"CMAKE_LIBRARY_PATH";
  VLit $"CMAKE_LIBRARY_PATH_FLAG";
  VLit $"CMAKE_LINK_DEF_FILE_FLAG";
  VLit $"CMAKE_LINK_DEPENDS_NO_SHARED";
  VLit $"CMAKE_LINK_INTERFACE_LIBRARIES";
  VLit $"CMAKE_LINK_LIBRARY_FILE_FLAG";
  VLit $"CMAKE_LINK_LIBRARY_FLAG";
  VLit $"CMAKE_LINK_LIBRARY_SUFFIX";
  VLit $"CMAKE_LINK_SEARCH_END_STATIC";
  VLit $"CMAKE_LINK_SEARCH_START_STATIC";
  VLit $"CMAKE_LINK_WHAT_YOU_USE";
  VLit $"CMAKE_MACOSX_BUNDLE";
  VLit $"CMAKE_MACOSX_RPATH";
  VLit $"CMAKE_MAJOR_VERSION";
  VLit $"CMAKE_MAKE_PROGRAM";
  VPat $"CMAKE_MAP_IMPORTED_CONFIG_" $"";
  VPat $"CMAKE_MATCH_" $"";
  VLit $"CMAKE_MATCH_COUNT";
  VLit $"CMAKE_MFC_FLAG";
  VLit $"CMAKE_MINIMUM_REQUIRED_VERSION";
  VLit $"CMAKE_MINOR_VERSION";
  VLit $"CMAKE_MODULE_LINKER_FLAGS";
  VPat $"CMAKE_MODULE_LINKER_FLAGS_" $"";
  VPat $"CMAKE_MODULE_LINKER_FLAGS_" $"_INIT";
  VLit $"CMAKE_MODULE_LINKER_FLAGS_INIT";
  VLit $"CMAKE_MODULE_PATH";
  VLit $"CMAKE_MSVCIDE_RUN_PATH";
  VLit $"CMAKE_NINJA_OUTPUT_PATH_PREFIX";
  VLit $"CMAKE_NOT_USING_CONFIG_FLAGS";
  VLit $"CMAKE_NO_BUILTIN_CHRPATH";
  VLit $"CMAKE_NO_SYSTEM_FROM_IMPORTED";
  VLit $"CMAKE_OBJECT_PATH_MAX";
  VLit $"CMAKE_OSX_ARCHITECTURES";
  VLit $"CMAKE_OSX_DEPLOYMENT_TARGET";
  VLit $"CMAKE_OSX_SYSROOT";
  VLit $"CMAKE_PARENT_LIST_FILE";
  VLit $"CMAKE_PATCH_VERSION";
  VLit $"CMAKE_PDB_OUTPUT_DIRECTORY";
  VPat $"CMAKE_PDB_OUTPUT_DIRECTORY_" $"";
  VPat $"CMAKE_POLICY_DEFAULT_CMP" $"";
  VPat $"CMAKE_POLICY_WARNING_CMP" $"";
  VLit $"CMAKE_POSITION_INDEPENDENT_CODE";
  VLit $"CMAKE_PREFIX_PATH";
  VLit $"CMAKE_PROGRAM_PATH";
  VPat $"CMAKE_PROJECT_" $"_INCLUDE";
  VLit $"CMAKE_PROJECT_DESCRIPTION";
  VLit $"CMAKE_PROJECT_NAME";
  VLit $"CMAKE_RANLIB";
  VLit $"CMAKE_ROOT";
  VLit $"CMAKE_RUNTIME_OUTPUT_DIRECTORY";
  VPat $"CMAKE_RUNTIME_OUTPUT_DIRECTORY_" $"";
  VLit $"CMAKE_SCRIPT_MODE_FILE";
  VLit $"CMAKE_SHARED_LIBRARY_PREFIX";
  VLit $"CMAKE_SHARED_LIBRARY_SUFFIX";
  VLit $"CMAKE_SHARED_LINKER_FLAGS";
  VPat $"CMAKE_SHARED_LINKER_FLAGS_" $"";
  VPat $"CMAKE_SHARED_LINKER_FLAGS_" $"_INIT";
  VLit $"CMAKE_SHARED_LINKER_FLAGS_INIT";
  VLit $"CMAKE_SHARED_MODULE_PREFIX";
  VLit $"CMAKE_SHARED_MODULE_SUFFIX";
  VLit $"CMAKE_SIZEOF_VOID_P";
  VLit $"CMAKE_SKIP_BUILD_RPATH";
  VLit $"CMAKE_SKIP_INSTALL_ALL_DEPENDENCY";
  VLit $"CMAKE_SKIP_INSTALL_RPATH";
  VLit $"CMAKE_SKIP_INSTALL_RULES";
  VLit $"CMAKE_SKIP_RPATH";
  VLit $"CMAKE_SOURCE_DIR";
  VLit $"CMAKE_STAGING_PREFIX";
  VLit $"CMAKE_STATIC_LIBRARY_PREFIX";
  VLit $"CMAKE_STATIC_LIBRARY_SUFFIX";
  VLit $"CMAKE_STATIC_LINKER_FLAGS";
  VPat $"CMAKE_STATIC_LINKER_FLAGS_" $"";
  VPat $"CMAKE_STATIC_LINKER_FLAGS_" $"_INIT";
  VLit $"CMAKE_STATIC_LINKER_FLAGS_INIT";
  VLit $"CMAKE_SUBLIME_TEXT_2_ENV_SETTINGS";
  VLit $"CMAKE_SUBLIME_TEXT_2_EXCLUDE_BUILD_TREE";
  VLit $"CMAKE_SYSROOT";
  VLit $"CMAKE_SYSROOT_COMPILE";
  VLit $"CMAKE_SYSROOT_LINK";
  VLit $"CMAKE_SYSTEM";
  VLit $"CMAKE_SYSTEM_APPBUNDLE_PATH";
  VLit $"CMAKE_SYSTEM_FRAMEWORK_PATH";
  VLit $"CMAKE_SYSTEM_IGNORE_PATH";
  VLit $"CMAKE_SYSTEM_INCLUDE_PATH";
  VLit $"CMAKE_SYSTEM_LIBRARY_PATH";
  VLit $"CMAKE_SYSTEM_NAME";
  VLit $"CMAKE_SYSTEM_PREFIX_PATH";
  VLit $"CMAKE_SYSTEM_PROCESSOR";
  VLit $"CMAKE_SYSTEM_PROGRAM_PATH";
  VLit $"CMAKE_SYSTEM_VERSION";
  VLit $"CMAKE_Swift_LANGUAGE_VERSION";
  VLit $"CMAKE_TOOLCHAIN_FILE";
  VLit $"CMAKE_TRY_COMPILE_CONFIGURATION";
  VLit $"CMAKE_TRY_COMPILE_PLATFORM_VARIABLES";
  VLit $"CMAKE_TRY_COMPILE_TARGET_TYPE";
  VLit $"CMAKE_TWEAK_VERSION";
  VLit $"CMAKE_USER_MAKE_RULES_OVERRIDE";
  VPat $"CMAKE_USER_MAKE_RULES_OVERRIDE_" $"";
  VLit $"CMAKE_USE_RELATIVE_PATHS";
  VLit $"CMAKE_VERBOSE_MAKEFILE";
  VLit $"CMAKE_VERSION";
  VLit $"CMAKE_VISIBILITY_INLINES_HIDDEN";
  VLit $"CMAKE_VS_DEVENV_COMMAND";
  VLit $"CMAKE_VS_INCLUDE_INSTALL_TO_DEFAULT_BUILD";
  VLit $"CMAKE_VS_INCLUDE_PACKAGE_TO_DEFAULT_BUILD";
  VLit $"CMAKE_VS_INTEL_Fortran_PROJECT_VERSION";
  VLit $"CMAKE_VS_MSBUILD_COMMAND";
  VLit $"CMAKE_VS_NsightTegra_VERSION";
  VLit $"CMAKE_VS_PLATFORM_NAME";
  VLit $"CMAKE_VS_PLATFORM_TOOLSET";
  VLit $"CMAKE_VS_PLATFORM_TOOLSET_CUDA";
  VLit $"CMAKE_VS_PLATFORM_TOOLSET_HOST_ARCHITECTURE";
  VLit $"CMAKE_VS_WINDOWS_TARGET_PLATFORM_VERSION";
  VLit $"CMAKE_WARN_DEPRECATED";
  VLit $"CMAKE_WARN_ON_ABSOLUTE_INSTALL_DESTINATION";
  VLit $"CMAKE_WIN32_EXECUTABLE";
  VLit $"CMAKE_WINDOWS_EXPORT_ALL_SYMBOLS";
  VPat $"CMAKE_XCODE_ATTRIBUTE_" $"";
  VLit $"CMAKE_XCODE_GENERATE_SCHEME";
  VLit $"CMAKE_XCODE_PLATFORM_TOOLSET";
  VLit $"CPACK_ABSOLUTE_DESTINATION_FILES";
  VLit $"CPACK_COMPONENT_INCLUDE_TOPLEVEL_DIRECTORY";
  VLit $"CPACK_ERROR_ON_ABSOLUTE_INSTALL_DESTINATION";
  VLit $"CPACK_INCLUDE_TOPLEVEL_DIRECTORY";
  VLit $"CPACK_INSTALL_SCRIPT";
  VLit $"CPACK_PACKAGING_INSTALL_PREFIX";
  VLit $"CPACK_SET_DESTDIR";
  VLit $"CPACK_WARN_ON_ABSOLUTE_INSTALL_DESTINATION";
  VLit $"CTEST_BINARY_DIRECTORY";
  VLit $"CTEST_BUILD_COMMAND";
  VLit $"CTEST_BUILD_NAME";
  VLit $"CTEST_BZR_COMMAND";
  VLit $"CTEST_BZR_UPDATE_OPTIONS";
  VLit $"CTEST_CHANGE_ID";
  VLit $"CTEST_CHECKOUT_COMMAND";
  VLit $"CTEST_CONFIGURATION_TYPE";
  VLit $"CTEST_CONFIGURE_COMMAND";
  VLit $"CTEST_COVERAGE_COMMAND";
  VLit $"CTEST_COVERAGE_EXTRA_FLAGS";
  VLit $"CTEST_CURL_OPTIONS";
  VLit $"CTEST_CUSTOM_COVERAGE_EXCLUDE";
  VLit $"CTEST_CUSTOM_ERROR_EXCEPTION";
  VLit $"CTEST_CUSTOM_ERROR_MATCH";
  VLit $"CTEST_CUSTOM_ERROR_POST_CONTEXT";
  VLit $"CTEST_CUSTOM_ERROR_PRE_CONTEXT";
  VLit $"CTEST_CUSTOM_MAXIMUM_FAILED_TEST_OUTPUT_SIZE";
  VLit $"CTEST_CUSTOM_MAXIMUM_NUMBER_OF_ERRORS";
  VLit $"CTEST_CUSTOM_MAXIMUM_NUMBER_OF_WARNINGS";
  VLit $"CTEST_CUSTOM_MAXIMUM_PASSED_TEST_OUTPUT_SIZE";
  VLit $"CTEST_CUSTOM_MEMCHECK_IGNORE";
  VLit $"CTEST_CUSTOM_POST_MEMCHECK";
  VLit $"CTEST_CUSTOM_POST_TEST";
  VLit $"CTEST_CUSTOM_PRE_MEMCHECK";
  VLit $"CTEST_CUSTOM_PRE_TEST";
  VLit $"CTEST_CUSTOM_TEST_IGNORE";
  VLit $"CTEST_CUSTOM_WARNING_EXCEPTION";
  VLit $"CTEST_CUSTOM_WARNING_MATCH";
  VLit $"CTEST_CVS_CHECKOUT";
  VLit $"CTEST_CVS_COMMAND";
  VLit $"CTEST_CVS_UPDATE_OPTIONS";
  VLit $"CTEST_DROP_LOCATION";
  VLit $"CTEST_DROP_METHOD";
  VLit $"CTEST_DROP_SITE";
  VLit $"CTEST_DROP_SITE_CDASH";
  VLit $"CTEST_DROP_SITE_PASSWORD";
  VLit $"CTEST_DROP_SITE_USER";
  VLit $"CTEST_EXTRA_COVERAGE_GLOB";
  VLit $"CTEST_GIT_COMMAND";
  VLit $"CTEST_GIT_INIT_SUBMODULES";
  VLit $"CTEST_GIT_UPDATE_CUSTOM";
  VLit $"CTEST_GIT_UPDATE_OPTIONS";
  VLit $"CTEST_HG_COMMAND";
  VLit $"CTEST_HG_UPDATE_OPTIONS";
  VLit $"CTEST_LABELS_FOR_SUBPROJECTS";
  VLit $"CTEST_MEMORYCHECK_COMMAND";
  VLit $"CTEST_MEMORYCHECK_COMMAND_OPTIONS";
  VLit $"CTEST_MEMORYCHECK_SANITIZER_OPTIONS";
  VLit $"CTEST_MEMORYCHECK_SUPPRESSIONS_FILE";
  VLit $"CTEST_MEMORYCHECK_TYPE";
  VLit $"CTEST_NIGHTLY_START_TIME";
  VLit $"CTEST_P4_CLIENT";
  VLit $"CTEST_P4_COMMAND";
  VLit $"CTEST_P4_OPTIONS";
  VLit $"CTEST_P4_UPDATE_OPTIONS";
  VLit $"CTEST_SCP_COMMAND";
  VLit $"CTEST_SITE";
  VLit $"CTEST_SOURCE_DIRECTORY";
  VLit $"CTEST_SVN_COMMAND";
  VLit $"CTEST_SVN_OPTIONS";
  VLit $"CTEST_SVN_UPDATE_OPTIONS";
  VLit $"CTEST_TEST_LOAD";
  VLit $"CTEST_TEST_TIMEOUT";
  VLit $"CTEST_TRIGGER_SITE";
  VLit $"CTEST_UPDATE_COMMAND";
  VLit $"CTEST_UPDATE_OPTIONS";
  VLit $"CTEST_UPDATE_VERSION_ONLY";
  VLit $"CTEST_USE_LAUNCHERS";
  VLit $"CYGWIN";
  VLit $"ENV";
  VLit $"EXECUTABLE_OUTPUT_PATH";
  VLit $"GHS-MULTI";
  VLit $"LIBRARY_OUTPUT_PATH";
  VLit $"MINGW";
  VLit $"MSVC";
  VLit $"MSVC10";
  VLit $"MSVC11";
  VLit $"MSVC12";
  VLit $"MSVC14";
  VLit $"MSVC60";
  VLit $"MSVC70";
  VLit $"MSVC71";
  VLit $"MSVC80";
  VLit $"MSVC90";
  VLit $"MSVC_IDE";
  VLit $"MSVC_VERSION";
  VLit $"PROJECT_BINARY_DIR";
  VLit $"PROJECT_DESCRIPTION";
  VLit $"PROJECT_NAME";
  VLit $"PROJECT_SOURCE_DIR";
  VLit $"PROJECT_VERSION";
  VLit $"PROJECT_VERSION_MAJOR";
  VLit $"PROJECT_VERSION_MINOR";
  VLit $"PROJECT_VERSION_PATCH";
  VLit $"PROJECT_VERSION_TWEAK";
  VLit $"UNIX";
  VLit $"WIN32";
  VLit $"WINCE";
  VLit $"WINDOWS_PHONE";
  VLit $"WINDOWS_STORE";
  VLit $"XCODE";
  VLit $"XCODE_VERSION"].
