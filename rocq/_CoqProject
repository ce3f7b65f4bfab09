-Q theories Verif
theories/AllocTest.v
theories/Auto.v
theories/AutoGen.v
theories/AutoTy.v
theories/Base.v
theories/Bincode.v
theories/Build.v
theories/Ci.v
theories/Cli.v
theories/Combinators.v
theories/CommandText.v
theories/ConsConc.v
theories/ConsTest.v
theories/Consolidate.v
theories/Conversions.v
theories/DebugName.v
theories/DebugTest.v
theories/Decimal.v
theories/Dirs.v
theories/DirsText.v
theories/EndToEnd.v
theories/Entries.v
theories/Env.v
theories/Format.v
theories/Fs.v
theories/FuzzCmd.v
theories/FuzzEnv.v
theories/FuzzTests.v
theories/Fuzzable.v
theories/GenericTest.v
theories/Generics.v
theories/Harness.v
theories/History.v
theories/Host.v
theories/Hygiene.v
theories/InstallTest.v
theories/Lines.v
theories/ListText.v
theories/Lossy.v
theories/MacroArgs.v
theories/MacroMod.v
theories/Meta.v
theories/Options.v
theories/Opts.v
theories/Persistent.v
theories/Postcard.v
theories/Production.v
theories/Profile.v
theories/PropsAllocTest.v
theories/PropsAuto.v
theories/PropsAutoTy.v
theories/PropsBuild.v
theories/PropsCi.v
theories/PropsCli.v
theories/PropsCombinators.v
theories/PropsConsConc.v
theories/PropsConsRetry.v
theories/PropsConsTest.v
theories/PropsConsolidate.v
theories/PropsConversions.v
theories/PropsDebug.v
theories/PropsDebugTest.v
theories/PropsDirs.v
theories/PropsDirsText.v
theories/PropsEndToEnd.v
theories/PropsEntries.v
theories/PropsFormat.v
theories/PropsFound.v
theories/PropsFrame.v
theories/PropsFuzzCmd.v
theories/PropsFuzzTests.v
theories/PropsFuzzable.v
theories/PropsFuzzable2.v
theories/PropsFuzzable3.v
theories/PropsGenericTest.v
theories/PropsGenerics.v
theories/PropsHarness.v
theories/PropsHeaders.v
theories/PropsHelpers.v
theories/PropsHistory.v
theories/PropsHost.v
theories/PropsHygiene.v
theories/PropsInstall.v
theories/PropsLines.v
theories/PropsList.v
theories/PropsMacroArgs.v
theories/PropsMacroMod.v
theories/PropsMacroMod2.v
theories/PropsMeta.v
theories/PropsOptions.v
theories/PropsPersistent.v
theories/PropsProduction.v
theories/PropsProfile.v
theories/PropsPublish.v
theories/PropsRace.v
theories/PropsRelease.v
theories/PropsReplayTest.v
theories/PropsRun.v
theories/PropsRun10.v
theories/PropsRun2.v
theories/PropsRun3.v
theories/PropsRun4.v
theories/PropsRun5.v
theories/PropsRun6.v
theories/PropsRun7.v
theories/PropsRun8.v
theories/PropsRun9.v
theories/PropsSched.v
theories/PropsSelf.v
theories/PropsSemver.v
theories/PropsSemverText.v
theories/PropsSerde.v
theories/PropsSerdeTest.v
theories/PropsSetArgs.v
theories/PropsSha1.v
theories/PropsShown.v
theories/PropsSkip.v
theories/PropsStdout.v
theories/PropsSupport.v
theories/PropsTargets.v
theories/PropsTestProcess.v
theories/PropsThirdFlow.v
theories/PropsThirdParty.v
theories/PropsThirdRun.v
theories/PropsTiming.v
theories/PropsTurbofish.v
theories/PropsUi.v
theories/PropsUtils.v
theories/PropsVersions.v
theories/PropsWarn.v
theories/PropsWorkflow.v
theories/PropsWrite.v
theories/Publish.v
theories/Race.v
theories/Release.v
theories/ReplayTest.v
theories/Run.v
theories/RunFacts.v
theories/Sched.v
theories/SchedInv.v
theories/SchedProofs.v
theories/SelfTy.v
theories/Semver.v
theories/SemverText.v
theories/Serde.v
theories/SerdeFacts.v
theories/SerdeTest.v
theories/SetArgs.v
theories/Sha1.v
theories/Shown.v
theories/SkipArgs.v
theories/Stdout.v
theories/Support.v
theories/Syntax.v
theories/Targets.v
theories/TestHelpers.v
theories/TestProcess.v
theories/ThirdFlow.v
theories/ThirdParty.v
theories/ThirdRun.v
theories/Timing.v
theories/Turbofish.v
theories/Ui.v
theories/Utf8.v
theories/Utils.v
theories/Versions.v
theories/Warn.v
theories/Workflow.v
theories/Write.v
theories/WriteConc.v
